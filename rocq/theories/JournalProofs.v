(** Proofs about the journal. *)
From Coq Require Import List Arith NArith Lia Bool.
From Verif Require Import Bytes CodecProofs CrcModel CrcProofs WriterModel WriterProofs HeaderModel HeaderProofs JournalModel.
Import ListNotations.
Local Open Scope N_scope.

Opaque crc_new crc_update crc_finish crc64.

(** ** Driver events *)

Lemma dev_payload_len a b c : List.length (dev_payload a b c) = 32%nat.
Proof. unfold dev_payload. rewrite !app_length, !u64_len. reflexivity. Qed.

Lemma enc_dev_len t k a b c : List.length (enc_dev t k a b c) = 64%nat.
Proof. unfold enc_dev. rewrite !app_length, u128_len, !u64_len, dev_payload_len. reflexivity. Qed.

Lemma dkind_code_lt k : dkind_code k < two64.
Proof. destruct k; reflexivity. Qed.

Lemma split_at {A} (n : nat) (l : list A) : (n <= List.length l)%nat ->
  exists a b, l = a ++ b /\ List.length a = n /\ List.length b = (List.length l - n)%nat.
Proof.
  intros H. exists (firstn n l), (skipn n l). rewrite firstn_skipn, firstn_length, skipn_length.
  repeat split; auto. lia.
Qed.

Lemma blk64 (l : bytes) : List.length l = 64%nat -> exists a b c d e f g,
  l = a ++ b ++ c ++ d ++ e ++ f ++ g /\ List.length a = 16%nat /\ List.length b = 8%nat /\
  List.length c = 8%nat /\ List.length d = 8%nat /\ List.length e = 8%nat /\ List.length f = 8%nat /\
  List.length g = 8%nat.
Proof.
  intros H. destruct (split_at 16 l ltac:(lia)) as (a & l1 & -> & Ha & H1). rewrite H in H1.
  destruct (split_at 8 l1 ltac:(lia)) as (b & l2 & -> & Hb & H2). rewrite H1 in H2.
  destruct (split_at 8 l2 ltac:(lia)) as (c & l3 & -> & Hc & H3). rewrite H2 in H3.
  destruct (split_at 8 l3 ltac:(lia)) as (d & l4 & -> & Hd & H4). rewrite H3 in H4.
  destruct (split_at 8 l4 ltac:(lia)) as (e & l5 & -> & He & H5). rewrite H4 in H5.
  destruct (split_at 8 l5 ltac:(lia)) as (f & g & -> & Hf & H6). rewrite H5 in H6.
  exists a, b, c, d, e, f, g. auto 10.
Qed.

Lemma segs64 (a b c d e f g : bytes) : List.length a = 16%nat -> List.length b = 8%nat ->
  List.length c = 8%nat -> List.length d = 8%nat -> List.length e = 8%nat -> List.length f = 8%nat ->
  List.length g = 8%nat ->
  let l := a ++ b ++ c ++ d ++ e ++ f ++ g in
  seg 0 16 l = a /\ seg 16 8 l = b /\ seg 24 8 l = c /\ seg 32 8 l = d /\ seg 32 32 l = d ++ e ++ f ++ g /\
  seg 40 8 l = e /\ seg 48 8 l = f /\ seg 56 8 l = g.
Proof.
  intros Ha Hb Hc Hd He Hf Hg l. unfold l.
  repeat split.
  - exact (seg_at 0 16 [] a _ eq_refl Ha).
  - apply (seg_at 16 8 a b); auto.
  - replace (a ++ b ++ c ++ d ++ e ++ f ++ g) with ((a ++ b) ++ c ++ (d ++ e ++ f ++ g)) by (rewrite <- !app_assoc; reflexivity).
    apply seg_at; auto. rewrite app_length; lia.
  - replace (a ++ b ++ c ++ d ++ e ++ f ++ g) with ((a ++ b ++ c) ++ d ++ (e ++ f ++ g)) by (rewrite <- !app_assoc; reflexivity).
    apply seg_at; auto. rewrite !app_length; lia.
  - replace (a ++ b ++ c ++ d ++ e ++ f ++ g) with ((a ++ b ++ c) ++ (d ++ e ++ f ++ g) ++ []) by (rewrite <- !app_assoc, app_nil_r; reflexivity).
    apply seg_at; rewrite !app_length; lia.
  - replace (a ++ b ++ c ++ d ++ e ++ f ++ g) with ((a ++ b ++ c ++ d) ++ e ++ (f ++ g)) by (rewrite <- !app_assoc; reflexivity).
    apply seg_at; auto. rewrite !app_length; lia.
  - replace (a ++ b ++ c ++ d ++ e ++ f ++ g) with ((a ++ b ++ c ++ d ++ e) ++ f ++ g) by (rewrite <- !app_assoc; reflexivity).
    apply seg_at; auto. rewrite !app_length; lia.
  - replace (a ++ b ++ c ++ d ++ e ++ f ++ g) with ((a ++ b ++ c ++ d ++ e ++ f) ++ g ++ []) by (rewrite <- !app_assoc, app_nil_r; reflexivity).
    apply seg_at; auto. rewrite !app_length; lia.
Qed.

Lemma dec_dev_enc t k a b c : t < two128 -> a < two64 -> b < two64 -> c < two64 ->
  dec_dev (enc_dev t k a b c) = Some (mk_dev t k a b c).
Proof.
  intros Ht Ha Hb Hc. unfold enc_dev, dev_payload.
  set (CK := crc64 _).
  destruct (segs64 (u128_le t) (u64_le (dkind_code k)) (u64_le CK) (u64_le 3) (u64_le a) (u64_le b) (u64_le c)
     (u128_len _) (u64_len _) (u64_len _) (u64_len _) (u64_len _) (u64_len _) (u64_len _))
    as (E0 & E1 & E2 & E3 & E4 & E5 & E6 & E7).
  unfold dec_dev. rewrite E0, E1, E2, E3, E4, E5, E6, E7.
  rewrite !u64_dec, u128_dec; auto using dkind_code_lt; try reflexivity.
  2: apply crc64_lt.
  change (u64_le 3 ++ u64_le a ++ u64_le b ++ u64_le c) with (dev_payload a b c).
  change (crc64 (dev_payload a b c)) with CK. rewrite N.eqb_refl.
  destruct k; reflexivity.
Qed.

Lemma dec_dev_canon l d : List.length l = 64%nat -> dec_dev l = Some d ->
  l = enc_dev (d_txn d) (d_kind d) (d_lck d) (d_loff d) (d_ltxn d) /\
  d_txn d < two128 /\ d_lck d < two64 /\ d_loff d < two64 /\ d_ltxn d < two64.
Proof.
  intros HL H. destruct (blk64 l HL) as (a & b & c & dd & e & f & g & -> & Ha & Hb & Hc & Hd & He & Hf & Hg).
  destruct (segs64 a b c dd e f g Ha Hb Hc Hd He Hf Hg) as (E0 & E1 & E2 & E3 & E4 & E5 & E6 & E7).
  unfold dec_dev in H. rewrite E0, E1, E2, E3, E4, E5, E6, E7 in H.
  destruct (N.ltb_spec 1 (le_dec b)) as [|Hk]; [discriminate|].
  destruct (N.eqb_spec (le_dec c) (crc64 (dd ++ e ++ f ++ g))) as [Hck|]; [|discriminate].
  destruct (N.eqb_spec (le_dec dd) 3) as [H3|]; [|discriminate].
  cbn [orb negb] in H. injection H as <-. cbn [d_txn d_kind d_lck d_loff d_ltxn].
  repeat split; auto using u64_dec_bound, u128_dec_bound.
  unfold enc_dev, dev_payload.
  rewrite !u64_enc_dec by auto. rewrite <- H3, u64_enc_dec by auto. rewrite <- Hck.
  unfold u128_le. rewrite le_enc_dec_k by auto. rewrite (u64_enc_dec c) by auto.
  f_equal. f_equal.
  rewrite <- (u64_enc_dec b Hb) at 1. f_equal.
  destruct (N.eqb_spec (le_dec b) 0); cbn [dkind_code]; lia.
Qed.

Ltac jcbn := cbn [r_rest r_cur r_crc r_txn r_last r_loff r_lck r_gs d_txn d_kind d_lck d_loff d_ltxn
  j_w j_txn j_known j_koff].

Lemma rd_ext {G} (rest : bytes) c1 c2 k1 k2 t1 t2 (l : N) o1 o2 q1 q2 (g : G) :
  c1 = c2 -> k1 = k2 -> t1 = t2 -> o1 = o2 -> q1 = q2 ->
  mk_rd rest c1 k1 t1 l o1 q1 g = mk_rd rest c2 k2 t2 l o2 q2 g.
Proof. intros -> -> -> -> ->. reflexivity. Qed.

Section Proofs.
Variable cap : N.
Variable G E : Type.
Variable ameta : E -> N.
Variable acommit : tw -> E -> tw * wres.
Variable adec : N -> G -> bytes -> option (G * bytes).

(** What is required of an adapter: [abytes e] is what it writes, [adisp e] what replaying it does;
    [aok] are the events it can write. *)
Variable abytes : E -> bytes.
Variable adisp : E -> G -> option G.
Variable aok : E -> Prop.
Hypothesis ameta_lt : forall e, aok e -> ameta e < server_ev_mask.
Hypothesis acommit_happy : forall w d e, aok e -> happy cap w d -> w_part w = crc_new ->
  exists w', acommit w e = (w', WOk) /\ happy cap w' (d ++ abytes e) /\
             w_ck w' = crc_update (w_ck w) (abytes e) /\ w_part w' = crc_new.
Hypothesis adec_bytes : forall e g sfx, aok e ->
  adec (ameta e) g (abytes e ++ sfx) = match adisp e g with Some g' => Some (g', sfx) | None => None end.
Hypothesis adec_cut : forall e g p q, aok e -> abytes e = p ++ q -> q <> [] -> adec (ameta e) g p = None.
Hypothesis adec_suffix : forall m g l g' l', adec m g l = Some (g', l') -> exists x, l = x ++ l'.

Notation rd := (rd G).
Notation r_step := (r_step G adec).
Notation r_loop := (r_loop G adec).
Notation jw := jw.

(** the part of the journal state shared by writer and reader *)
Record js := mk_js { s_txn : N; s_known : N; s_koff : N; s_ck : N; s_off : N }.
Ltac scbn := cbn [s_txn s_known s_koff s_ck s_off].
Definition js0 : js := mk_js 0 0 0 crc_new 64.
Definition js_next (s : js) (b : bytes) : js :=
  mk_js (s_txn s + 1) (s_txn s) (s_off s + len b) (crc_update (s_ck s) b) (s_off s + len b).
Definition js_wf (s : js) : Prop :=
  s_txn s <= s_off s /\ s_known s <= s_off s /\ s_koff s <= s_off s /\ s_ck s < two64 /\
  (s_koff s = 0 <-> s_txn s = 0) /\ s_known s = s_txn s - 1 /\ 64 <= s_off s.

Definition ev_bytes (s : js) (e : E) : bytes :=
  u128_le (s_txn s) ++ u64_le (N.lor (ameta e) server_ev_mask) ++ abytes e.
Definition dr_bytes (s : js) (k : dkind) : bytes :=
  enc_dev (s_txn s) k (crc_finish (s_ck s)) (s_koff s) (s_known s).

Lemma dr_len s k : len (dr_bytes s k) = 64.
Proof. unfold len, dr_bytes. rewrite enc_dev_len. reflexivity. Qed.
Lemma dr_length s k : List.length (dr_bytes s k) = 64%nat.
Proof. apply enc_dev_len. Qed.
Lemma ev_len s e : len (ev_bytes s e) = 24 + len (abytes e).
Proof. unfold ev_bytes. rewrite !len_app. unfold len. rewrite u128_len, u64_len. lia. Qed.

Lemma js_next_wf s b : js_wf s -> 1 <= len b -> js_wf (js_next s b).
Proof.
  intros (A & B & C & D & F & K & L) Hb. unfold js_wf; cbn. repeat split; try lia.
  apply crc_update_lt; auto.
Qed.

Lemma js0_wf : js_wf js0.
Proof. unfold js_wf, js0; cbn. repeat split; try lia. Qed.

(** the reader that agrees with [s], with [sfx] still unread *)
Definition rd_of (s : js) (sfx : bytes) (g : G) : rd :=
  mk_rd sfx (s_off s) (s_ck s) (s_txn s) (s_known s) (s_koff s) (crc_finish (s_ck s)) g.

Lemma r_read_app n b sfx : List.length b = n ->
  forall cur ck t l lo lk g,
  r_read G n (mk_rd (b ++ sfx) cur ck t l lo lk g)
  = Some (b, mk_rd sfx (cur + N.of_nat n) (crc_update ck b) t l lo lk g).
Proof. intros H *. unfold r_read; cbn. rewrite (take_app_k n) by auto. reflexivity. Qed.

Lemma r_read_short n l cur ck t la lo lk g : (List.length l < n)%nat ->
  r_read G n (mk_rd l cur ck t la lo lk g) = None.
Proof. intros H. unfold r_read; cbn. apply take_none in H. rewrite H. reflexivity. Qed.

Lemma mask_land m : m < server_ev_mask -> N.land (N.lor m server_ev_mask) server_ev_mask = server_ev_mask.
Proof.
  intros H. apply N.bits_inj. intros i. rewrite N.land_spec, N.lor_spec.
  destruct (N.testbit server_ev_mask i); [apply andb_true_iff; split; [apply orb_true_r|reflexivity]|apply andb_false_r].
Qed.

Lemma mask_bit i : N.testbit server_ev_mask i = (i =? 63).
Proof. change server_ev_mask with (2^63). rewrite N.pow2_bits_eqb. apply N.eqb_sym. Qed.

Lemma mask_lt_bit m : m < server_ev_mask -> N.testbit m 63 = false.
Proof.
  intros H. destruct (N.eq_0_gt_0_cases m) as [->|Hp]; [apply N.bits_0|].
  apply N.bits_above_log2. apply N.log2_lt_pow2; auto.
Qed.

Lemma mask_ldiff m : m < server_ev_mask -> N.ldiff (N.lor m server_ev_mask) server_ev_mask = m.
Proof.
  intros H. apply N.bits_inj. intros i. rewrite N.ldiff_spec, N.lor_spec, mask_bit.
  destruct (N.eqb_spec i 63) as [->|].
  - rewrite (mask_lt_bit m H). reflexivity.
  - rewrite orb_false_r, andb_true_r. reflexivity.
Qed.

Lemma mask_lor_lt m : m < server_ev_mask -> N.lor m server_ev_mask < two64.
Proof.
  intros H. apply lt_two64_bits. intros i Hi. rewrite N.lor_spec, mask_bit.
  destruct (N.eqb_spec i 63); [lia|]. rewrite orb_false_r.
  assert (M : m < two64) by (unfold two64, server_ev_mask in *; lia).
  rewrite lt_two64_bits in M. apply M; auto.
Qed.

Lemma off_txn s : js_wf s -> s_off s < two64 -> s_txn s < two128.
Proof. intros (A & _) H. unfold two128, two64 in *. lia. Qed.

Lemma mul_N_of_nat_len (l : bytes) : N.of_nat (List.length l) = len l.
Proof. reflexivity. Qed.

(** reading a server event *)
Lemma step_ev s e sfx g : js_wf s -> s_off s < two64 -> aok e ->
  r_step (rd_of s (ev_bytes s e ++ sfx) g)
  = match adisp e g with
    | Some g' => SMore (rd_of (js_next s (ev_bytes s e)) sfx g')
    | None => SErr
    end.
Proof.
  intros W O A. unfold ev_bytes. rewrite <- !app_assoc. unfold r_step, rd_of.
  rewrite r_read_app by (auto using u128_len). rewrite r_read_app by (auto using u64_len).
  rewrite u128_dec by (apply off_txn; auto). rewrite u64_dec by (apply mask_lor_lt, ameta_lt; auto).
  cbn [r_txn]. rewrite N.eqb_refl. cbn [negb].
  rewrite mask_land by (apply ameta_lt; auto). change (server_ev_mask =? 0) with false. cbn [negb].
  rewrite mask_ldiff by (apply ameta_lt; auto).
  unfold r_adapter; cbn [r_gs r_rest]. rewrite adec_bytes by auto.
  destruct (adisp e g) as [g'|]; [|reflexivity].
  rewrite app_length.
  replace (List.length (abytes e) + List.length sfx - List.length sfx)%nat with (List.length (abytes e)) by lia.
  rewrite firstn_len_app by reflexivity.
  unfold r_refresh, js_next, rd_of; jcbn; scbn.
  assert (LE : s_off s + N.of_nat 16 + N.of_nat 8 + N.of_nat (List.length (abytes e))
      = s_off s + len (u128_le (s_txn s) ++ u64_le (N.lor (ameta e) server_ev_mask) ++ abytes e)).
  { rewrite !len_app. unfold len. rewrite u128_len, u64_len. lia. }
  rewrite LE, !crc_update_app. reflexivity.
Qed.

Lemma step_cut_head s l g : (List.length l < 24)%nat -> r_step (rd_of s l g) = SErr.
Proof.
  intros H. unfold r_step, rd_of. destruct (le_lt_dec 16 (List.length l)) as [H1|H1].
  - destruct (split_at 16 l H1) as (a & b & -> & Ha & Hb). rewrite app_length in *.
    rewrite r_read_app by auto. rewrite r_read_short by lia. reflexivity.
  - rewrite r_read_short by auto. reflexivity.
Qed.

Lemma app_eq_split {A} (a b c d : list A) : a ++ b = c ++ d -> (List.length a <= List.length c)%nat ->
  exists m, c = a ++ m /\ b = m ++ d.
Proof.
  revert c. induction a as [|x a IH]; intros c H L; simpl in *.
  - exists c. auto.
  - destruct c as [|y c]; simpl in *; [lia|]. injection H as -> H. destruct (IH c H) as (m & -> & ->); [lia|].
    exists m. auto.
Qed.

Lemma step_ev_cut s e p q g : js_wf s -> s_off s < two64 -> aok e -> ev_bytes s e = p ++ q -> q <> [] ->
  r_step (rd_of s p g) = SErr.
Proof.
  intros W O A H Hq. destruct (le_lt_dec 24 (List.length p)) as [L|L].
  2: { apply step_cut_head; auto. }
  unfold ev_bytes in H. rewrite app_assoc in H.
  apply app_eq_split in H as (m & -> & Hm).
  2: { rewrite app_length, u128_len, u64_len. lia. }
  unfold r_step, rd_of. rewrite <- app_assoc.
  rewrite r_read_app by (auto using u128_len). rewrite r_read_app by (auto using u64_len).
  rewrite u128_dec by (apply off_txn; auto). rewrite u64_dec by (apply mask_lor_lt, ameta_lt; auto).
  cbn [r_txn]. rewrite N.eqb_refl. cbn [negb].
  rewrite mask_land by (apply ameta_lt; auto). change (server_ev_mask =? 0) with false. cbn [negb].
  rewrite mask_ldiff by (apply ameta_lt; auto).
  unfold r_adapter; cbn [r_gs r_rest]. rewrite (adec_cut _ _ _ _ A Hm Hq). reflexivity.
Qed.

Lemma dr_split s k : dr_bytes s k = u128_le (s_txn s) ++ u64_le (dkind_code k)
  ++ (u64_le (crc64 (dev_payload (crc_finish (s_ck s)) (s_koff s) (s_known s)))
      ++ dev_payload (crc_finish (s_ck s)) (s_koff s) (s_known s)).
Proof. reflexivity. Qed.

Lemma dr_dec s k : js_wf s -> s_off s < two64 ->
  dec_dev (dr_bytes s k) = Some (mk_dev (s_txn s) k (crc_finish (s_ck s)) (s_koff s) (s_known s)).
Proof.
  intros W O. pose proof W as (A & B & C & D & F & K & L).
  apply dec_dev_enc; try lia; auto using off_txn, crc_finish_lt.
Qed.

(** reading a close record: what follows decides *)
Lemma step_close s sfx g : js_wf s -> s_off s < two64 ->
  r_step (rd_of s (dr_bytes s DClosed ++ sfx) g)
  = (let r := rd_of (js_next s (dr_bytes s DClosed)) sfx g in
     match sfx with [] => SDone r | _ => handle_reopen G r end).
Proof.
  intros W O. pose proof (dr_dec s DClosed W O) as HD. rewrite dr_split in *.
  set (tail := u64_le (crc64 _) ++ _) in *.
  assert (HT : List.length tail = 40%nat).
  { unfold tail. rewrite app_length, u64_len, dev_payload_len. reflexivity. }
  rewrite <- !app_assoc. unfold r_step, rd_of.
  rewrite r_read_app by (auto using u128_len). rewrite r_read_app by (auto using u64_len).
  rewrite u128_dec by (apply off_txn; auto). rewrite u64_dec by (apply dkind_code_lt).
  cbn [r_txn]. rewrite N.eqb_refl. cbn [negb].
  change (N.land (dkind_code DClosed) server_ev_mask =? 0) with true. cbn [negb].
  unfold handle_close. rewrite r_read_app by auto.
  rewrite <- app_assoc. rewrite HD. cbn [d_kind].
  unfold meta_ok; jcbn. rewrite !N.eqb_refl. cbn [andb].
  unfold r_refresh, js_next; jcbn; scbn.
  match goal with |- (match _ with [] => SDone ?a | _ => _ end) = (match _ with [] => SDone ?b | _ => _ end) => assert (EE : a = b) end.
  { rewrite !len_app, !crc_update_app.
    replace (len (u128_le (s_txn s))) with 16 by (unfold len; rewrite u128_len; reflexivity).
    replace (len (u64_le (dkind_code DClosed))) with 8 by (unfold len; rewrite u64_len; reflexivity).
    replace (len tail) with 40 by (unfold len; rewrite HT; reflexivity).
    apply rd_ext; auto; lia. }
  rewrite EE. reflexivity.
Qed.

Lemma step_reopen s sfx g : js_wf s -> s_off s < two64 ->
  handle_reopen G (rd_of s (dr_bytes s DReopened ++ sfx) g)
  = SMore (rd_of (js_next s (dr_bytes s DReopened)) sfx g).
Proof.
  intros W O. unfold handle_reopen, rd_of. rewrite r_read_app by (apply dr_length).
  rewrite (dr_dec s DReopened W O). cbn [d_kind]. unfold meta_ok; jcbn. rewrite !N.eqb_refl. cbn [andb].
  unfold r_refresh, js_next, rd_of; jcbn; scbn. rewrite dr_len. reflexivity.
Qed.

Lemma reopen_cut s p g : (List.length p < 64)%nat -> handle_reopen G (rd_of s p g) = SErr.
Proof. intros H. unfold handle_reopen, rd_of. rewrite r_read_short by auto. reflexivity. Qed.

Lemma step_close_cut s p q g : js_wf s -> s_off s < two64 -> dr_bytes s DClosed = p ++ q -> q <> [] ->
  r_step (rd_of s p g) = SErr.
Proof.
  intros W O H Hq. destruct (le_lt_dec 24 (List.length p)) as [L|L].
  2: { apply step_cut_head; auto. }
  assert (LP : (List.length p < 64)%nat).
  { pose proof (dr_length s DClosed) as LL. rewrite H, app_length in LL.
    destruct q; [congruence|]. simpl in LL. lia. }
  rewrite dr_split, app_assoc in H. apply app_eq_split in H as (m & -> & Hm).
  2: { rewrite app_length, u128_len, u64_len. lia. }
  rewrite !app_length, u128_len, u64_len in LP.
  unfold r_step, rd_of. rewrite <- app_assoc.
  rewrite r_read_app by (auto using u128_len). rewrite r_read_app by (auto using u64_len).
  rewrite u128_dec by (apply off_txn; auto). rewrite u64_dec by (apply dkind_code_lt).
  cbn [r_txn]. rewrite N.eqb_refl. cbn [negb].
  change (N.land (dkind_code DClosed) server_ev_mask =? 0) with true. cbn [negb].
  unfold handle_close. rewrite r_read_short by lia. reflexivity.
Qed.

(** ** Writer *)

(** a writer in sync with [s] on a healthy disk, with file content [f] *)
Definition jw_of (j : jw) (s : js) (f : bytes) : Prop :=
  happy cap (j_w j) f /\ w_buf (j_w j) = [] /\ w_file (j_w j) = f /\ w_ck (j_w j) = s_ck s /\
  j_txn j = s_txn s /\ j_known j = s_known s /\ j_koff j = s_koff s /\ s_off s = len f /\
  w_part (j_w j) = crc_new.

Lemma happy_cursor w d : happy cap w d -> w_buf w = [] -> w_cursor w = len d.
Proof. intros [(Hd & Hc & _) _] B. rewrite B, app_nil_r in Hd. congruence. Qed.

Lemma commit_ok j s f e : jw_of j s f -> aok e ->
  exists j', j_commit cap E ameta acommit j e = (j', WOk) /\
             jw_of j' (js_next s (ev_bytes s e)) (f ++ ev_bytes s e).
Proof.
  intros (H & B & F & K & T & Kn & Ko & Of & Pt) A. unfold j_commit, txn_context. cbn [j_w].
  destruct (tracked_write_happy cap _ _ (u128_le (j_txn j)) H) as (w1 & E1 & H1 & K1 & P1).
  rewrite E1; cbn [wseq].
  destruct (tracked_write_happy cap _ _ (u64_le (N.lor (ameta e) server_ev_mask)) H1) as (w2 & E2 & H2 & K2 & P2).
  rewrite E2; cbn [wseq].
  destruct (acommit_happy _ _ e A H2) as (w3 & E3 & H3 & K3 & P3); [congruence|]. rewrite E3; cbn [wseq].
  destruct (flush_sync_happy cap _ _ H3) as (w4 & E4 & H4 & B4 & F4 & K4 & P4). rewrite E4.
  eexists. split; [reflexivity|].
  assert (EF : ((f ++ u128_le (j_txn j)) ++ u64_le (N.lor (ameta e) server_ev_mask)) ++ abytes e = f ++ ev_bytes s e).
  { unfold ev_bytes. rewrite T, <- !app_assoc. reflexivity. }
  rewrite EF in *. unfold jw_of, js_next; jcbn; scbn.
  repeat split; auto; try apply H4.
  - rewrite K4, K3, K2, K1, K, T. unfold ev_bytes. rewrite !crc_update_app. reflexivity.
  - rewrite T. reflexivity.
  - rewrite (happy_cursor _ _ H4 B4), len_app, Of. reflexivity.
  - rewrite len_app, Of. reflexivity.
  - congruence.
Qed.

Lemma driver_ok j s f k : jw_of j s f ->
  exists j', j_driver_event j k = (j', WOk) /\
             jw_of j' (js_next s (dr_bytes s k)) (f ++ dr_bytes s k).
Proof.
  intros (H & B & F & K & T & Kn & Ko & Of & Pt). unfold j_driver_event, txn_context. cbn [j_w j_koff j_known].
  rewrite K, T, Ko, Kn. fold (dr_bytes s k).
  destruct (through_happy cap _ _ (dr_bytes s k) H B) as (w1 & E1 & H1 & B1 & F1 & K1 & P1).
  rewrite E1. eexists. split; [reflexivity|].
  unfold jw_of, js_next; jcbn; scbn. repeat split; auto; try apply H1.
  - rewrite K1, K. reflexivity.
  - rewrite (happy_cursor _ _ H1 B1), len_app, Of. reflexivity.
  - rewrite len_app, Of. reflexivity.
  - congruence.
Qed.

(** ** Reader loop *)

Lemma r_step_shrinks r r' : r_step r = SMore r' -> (List.length (r_rest G r') + 24 <= List.length (r_rest G r))%nat.
Proof.
  destruct r as [rest cur ck t la lo lk g]. unfold r_step.
  destruct (le_lt_dec 16 (List.length rest)) as [H1|H1].
  2: { rewrite r_read_short by auto. discriminate. }
  destruct (split_at 16 rest H1) as (b1 & rest1 & -> & L1 & _). rewrite r_read_app by auto.
  destruct (le_lt_dec 8 (List.length rest1)) as [H2|H2].
  2: { rewrite r_read_short by auto. discriminate. }
  destruct (split_at 8 rest1 H2) as (b2 & rest2 & -> & L2 & _). rewrite r_read_app by auto.
  destruct (negb (le_dec b1 =? _)); [discriminate|].
  destruct (negb (N.land (le_dec b2) server_ev_mask =? 0)).
  - unfold r_adapter; cbn [r_gs r_rest]. destruct (adec _ g rest2) as [[g' rest3]|] eqn:A; [|discriminate].
    intros H; injection H as <-. cbn. apply adec_suffix in A as [x ->]. rewrite !app_length. lia.
  - unfold handle_close. destruct (le_lt_dec 40 (List.length rest2)) as [H3|H3].
    2: { rewrite r_read_short by auto. discriminate. }
    destruct (split_at 40 rest2 H3) as (b3 & rest3 & -> & L3 & _). rewrite r_read_app by auto.
    destruct (dec_dev _) as [d|]; [|discriminate]. destruct (d_kind d); [discriminate|].
    destruct (meta_ok _ _ _); [|discriminate]. unfold r_refresh; cbn [r_rest].
    destruct rest3 as [|x rest3]; [discriminate|]. unfold handle_reopen.
    set (rest4 := x :: rest3). destruct (le_lt_dec 64 (List.length rest4)) as [H4|H4].
    2: { rewrite r_read_short by auto. discriminate. }
    destruct (split_at 64 rest4 H4) as (b4 & rest5 & E4 & L4 & _). rewrite E4, r_read_app by auto.
    destruct (dec_dev b4) as [d'|]; [|discriminate]. destruct (d_kind d'); [|discriminate].
    destruct (meta_ok _ _ _ && _); [|discriminate]. intros H; injection H as <-. cbn.
    rewrite !app_length. lia.
Qed.

Lemma r_loop_nofuel n : forall r, (List.length (r_rest G r) <= n)%nat -> r_loop n r <> JFuel.
Proof.
  induction n as [|n IH]; intros r H; cbn; destruct (r_step r) as [r'|r'|] eqn:S; try discriminate;
    apply r_step_shrinks in S.
  - lia.
  - apply IH. lia.
Qed.

Lemma r_loop_fuel n : forall m r, (List.length (r_rest G r) <= n)%nat -> (List.length (r_rest G r) <= m)%nat ->
  r_loop n r = r_loop m r.
Proof.
  induction n as [|n IH]; intros m r H H'.
  - destruct m; cbn; destruct (r_step r) as [r'|r'|] eqn:S; auto; apply r_step_shrinks in S; lia.
  - destruct m; cbn; destruct (r_step r) as [r'|r'|] eqn:S; auto; apply r_step_shrinks in S; try lia.
    apply IH; lia.
Qed.

Definition scan (r : rd) : jres rd := r_loop (List.length (r_rest G r)) r.

Lemma scan_eq r : scan r = match r_step r with
  | SErr => JErr | SDone r' => JOk r' | SMore r' => scan r' end.
Proof.
  unfold scan. rewrite (r_loop_fuel _ (S (List.length (r_rest G r)))) by lia. cbn [JournalModel.r_loop].
  destruct (r_step r) as [r'|r'|] eqn:S; auto. apply r_step_shrinks in S. apply r_loop_fuel; lia.
Qed.

Lemma scroll_scan body g : j_scroll G adec body g = scan (rd_of js0 body g).
Proof.
  unfold j_scroll, scan, rd_of, js0; cbn [r_rest s_off s_ck s_txn s_known s_koff].
  change (crc_finish crc_new) with (crc64 []). rewrite crc64_nil. reflexivity.
Qed.

(** ** Histories *)

(** what happens to a journal file in an orderly life: events, clean closes and reopenings *)
Inductive op := OEv (e : E) | OCloseReopen.

Definition op_bytes (s : js) (o : op) : bytes :=
  match o with
  | OEv e => ev_bytes s e
  | OCloseReopen => dr_bytes s DClosed ++ dr_bytes (js_next s (dr_bytes s DClosed)) DReopened
  end.
Definition js_op (s : js) (o : op) : js :=
  match o with
  | OEv e => js_next s (ev_bytes s e)
  | OCloseReopen => let s1 := js_next s (dr_bytes s DClosed) in js_next s1 (dr_bytes s1 DReopened)
  end.
Fixpoint ops_bytes (s : js) (ops : list op) : bytes :=
  match ops with [] => [] | o :: ops' => op_bytes s o ++ ops_bytes (js_op s o) ops' end.
Definition js_ops (s : js) (ops : list op) : js := fold_left js_op ops s.
Definition op_ok (o : op) : Prop := match o with OEv e => aok e | _ => True end.
Definition op_events (o : op) : list E := match o with OEv e => [e] | _ => [] end.
Definition events (ops : list op) : list E := flat_map op_events ops.

(** replaying a list of events *)
Fixpoint replay (evs : list E) (g : G) : option G :=
  match evs with
  | [] => Some g
  | e :: evs' => match adisp e g with Some g' => replay evs' g' | None => None end
  end.

Lemma js_op_wf s o : js_wf s -> js_wf (js_op s o).
Proof.
  intros W. destruct o; cbn [js_op].
  - apply js_next_wf; auto. rewrite ev_len. lia.
  - apply js_next_wf; [apply js_next_wf; auto|]; rewrite dr_len; lia.
Qed.

Lemma js_op_off s o : s_off (js_op s o) = s_off s + len (op_bytes s o).
Proof. destruct o; cbn [js_op op_bytes]; unfold js_next; scbn; rewrite ?len_app; lia. Qed.

Lemma js_ops_off ops : forall s, s_off (js_ops s ops) = s_off s + len (ops_bytes s ops).
Proof.
  induction ops as [|o ops IH]; intros s; cbn [js_ops fold_left ops_bytes].
  - rewrite len_nil. lia.
  - change (fold_left js_op ops (js_op s o)) with (js_ops (js_op s o) ops).
    rewrite IH, js_op_off, len_app. lia.
Qed.

Lemma js_ops_wf ops : forall s, js_wf s -> js_wf (js_ops s ops).
Proof. induction ops; intros; [exact H|]. apply IHops, js_op_wf; auto. Qed.

(** one operation read back *)
Lemma scan_op s o sfx g : js_wf s -> s_off s + len (op_bytes s o) < two64 -> op_ok o ->
  scan (rd_of s (op_bytes s o ++ sfx) g)
  = match replay (op_events o) g with
    | Some g' => scan (rd_of (js_op s o) sfx g')
    | None => JErr
    end.
Proof.
  intros W O A. destruct o as [e|]; cbn [op_bytes op_events replay js_op] in *.
  - rewrite scan_eq, step_ev by (auto; lia). destruct (adisp e g); reflexivity.
  - rewrite len_app, !dr_len in O. rewrite scan_eq, <- app_assoc, step_close by (auto; lia). cbn zeta.
    set (s1 := js_next s (dr_bytes s DClosed)).
    assert (W1 : js_wf s1) by (apply js_next_wf; auto; rewrite dr_len; lia).
    destruct (dr_bytes s1 DReopened ++ sfx) eqn:D.
    { pose proof (dr_length s1 DReopened). destruct (dr_bytes s1 DReopened); [discriminate|discriminate]. }
    rewrite <- D. rewrite step_reopen; auto. unfold s1, js_next; scbn. rewrite dr_len. lia.
Qed.

Lemma replay_app a b g : replay (a ++ b) g = match replay a g with Some g' => replay b g' | None => None end.
Proof.
  revert g. induction a as [|e a IH]; intros g; cbn; auto. destruct (adisp e g); auto.
Qed.

Lemma scan_ops ops : forall s sfx g, js_wf s -> s_off s + len (ops_bytes s ops) < two64 -> Forall op_ok ops ->
  scan (rd_of s (ops_bytes s ops ++ sfx) g)
  = match replay (events ops) g with
    | Some g' => scan (rd_of (js_ops s ops) sfx g')
    | None => JErr
    end.
Proof.
  induction ops as [|o ops IH]; intros s sfx g W O A; cbn [ops_bytes js_ops events flat_map replay app fold_left].
  - reflexivity.
  - inversion A; subst. cbn [ops_bytes] in O. rewrite len_app in O.
    rewrite <- app_assoc, scan_op by (auto; lia). rewrite replay_app.
    destruct (replay (op_events o) g) as [g'|]; [|reflexivity].
    change (fold_left js_op ops (js_op s o)) with (js_ops (js_op s o) ops).
    apply IH; auto using js_op_wf. rewrite js_op_off. lia.
Qed.

(** reading a cleanly closed file *)
Lemma scan_closed ops s g g' : js_wf s -> Forall op_ok ops ->
  let s1 := js_ops s ops in let s2 := js_next s1 (dr_bytes s1 DClosed) in
  s_off s2 < two64 -> replay (events ops) g = Some g' ->
  scan (rd_of s (ops_bytes s ops ++ dr_bytes s1 DClosed) g) = JOk (rd_of s2 [] g').
Proof.
  intros W A s1 s2 O R. unfold s2, js_next in O; cbn [s_off] in O. rewrite dr_len in O. unfold s1 in O. rewrite js_ops_off in O.
  rewrite scan_ops by (auto; lia). rewrite R. fold s1.
  rewrite scan_eq. rewrite <- (app_nil_r (dr_bytes s1 DClosed)) at 1.
  rewrite step_close; [reflexivity|apply js_ops_wf; auto|].
  unfold s1. rewrite js_ops_off. lia.
Qed.

(** ** cut files: every prefix of a stream is either refused or ends at a clean close *)
Lemma scan_prefix ops : forall s g tail p q r, js_wf s -> Forall op_ok ops ->
  s_off s + len (ops_bytes s ops ++ tail) < two64 ->
  (tail = [] \/ tail = dr_bytes (js_ops s ops) DClosed) ->
  ops_bytes s ops ++ tail = p ++ q ->
  scan (rd_of s p g) = JOk r ->
  exists ops1 ops2 g', p = ops_bytes s ops1 ++ dr_bytes (js_ops s ops1) DClosed /\
    (ops = ops1 ++ OCloseReopen :: ops2 \/ (ops = ops1 /\ tail <> [])) /\
    replay (events ops1) g = Some g' /\ r_gs G r = g' /\ r_rest G r = [].
Proof.
  induction ops as [|o ops IH]; intros s g tail p q r W A O HT H R.
  - cbn [ops_bytes app js_ops fold_left] in *. destruct HT as [-> | ->].
    + symmetry in H. apply app_eq_nil in H as [-> ->]. rewrite scan_eq, step_cut_head in R by (simpl; lia). discriminate.
    + destruct q as [|x q].
      * rewrite app_nil_r in H. subst p. rewrite scan_eq in R.
        rewrite dr_len in O.
        rewrite <- (app_nil_r (dr_bytes s DClosed)) in R. rewrite step_close in R by (auto; lia).
        injection R as <-. exists [], [], g. cbn [ops_bytes js_ops fold_left events flat_map replay app]. repeat split; auto. right. split; auto.
        intros C. pose proof (dr_length s DClosed) as L. rewrite C in L. discriminate L.
      * rewrite dr_len in O. rewrite scan_eq, (step_close_cut s p (x :: q)) in R by (auto; try lia; discriminate). discriminate.
  - inversion A as [|? ? Ao Aops]; subst. cbn [ops_bytes] in H, O. rewrite <- app_assoc in H, O.
    rewrite len_app in O.
    destruct (le_lt_dec (List.length (op_bytes s o)) (List.length p)) as [L|L].
    + apply app_eq_split in H as (m & -> & Hm); auto.
      rewrite scan_op in R by (auto; lia).
      destruct (replay (op_events o) g) as [g1|] eqn:R1; [|discriminate].
      destruct (IH (js_op s o) g1 tail m q r) as (ops1 & ops2 & g' & -> & Hops & Hr & Hg & Hrest); auto using js_op_wf.
      { rewrite js_op_off. lia. }
      exists (o :: ops1), ops2, g'. cbn [ops_bytes js_ops fold_left events flat_map].
      rewrite <- app_assoc. repeat split; auto.
      * destruct Hops as [-> | [-> Ht]]; [left; reflexivity|right; auto].
      * change (flat_map op_events ops1) with (events ops1). rewrite replay_app, R1. exact Hr.
    + symmetry in H. apply app_eq_split in H as (m & Ho & Hq); [|lia].
      destruct o as [e|]; cbn [op_bytes] in *.
      * rewrite scan_eq, (step_ev_cut s e p m) in R; auto; try discriminate; try lia.
        intros ->. rewrite app_nil_r in Ho. rewrite Ho in L. lia.
      * rewrite !len_app, !dr_len in O. rewrite app_length, !dr_length in L.
        destruct (le_lt_dec 64 (List.length p)) as [L64|L64].
        -- apply app_eq_split in Ho as (m2 & -> & Hm2); [|rewrite dr_length; auto].
           rewrite app_length, dr_length in L. rewrite scan_eq, step_close in R by (auto; lia). cbn zeta in R.
           destruct m2 as [|x m2].
           ++ injection R as <-. rewrite app_nil_r. exists [], ops, g. cbn [ops_bytes js_ops fold_left events flat_map replay app]. auto 6.
           ++ rewrite reopen_cut in R by lia. discriminate.
        -- symmetry in Ho. apply app_eq_split in Ho as (m2 & Hd & _); [|rewrite dr_length; lia].
           rewrite scan_eq, (step_close_cut s p m2) in R; auto; try lia; try discriminate.
           intros ->. rewrite app_nil_r in Hd. apply (f_equal (@List.length byte)) in Hd. rewrite dr_length in Hd. lia.
Qed.

(** ** What any accepted byte string looks like *)
Inductive chain : js -> G -> bytes -> js -> G -> Prop :=
| ch_close s g : chain s g (dr_bytes s DClosed) (js_next s (dr_bytes s DClosed)) g
| ch_reopen s g rest s' g' :
    chain (js_op s OCloseReopen) g rest s' g' ->
    chain s g (op_bytes s OCloseReopen ++ rest) s' g'
| ch_srv s g (b2 x rest : bytes) g1 s' g' :
    List.length b2 = 8%nat -> N.land (le_dec b2) server_ev_mask <> 0 ->
    adec (N.ldiff (le_dec b2) server_ev_mask) g (x ++ rest) = Some (g1, rest) ->
    chain (js_next s (u128_le (s_txn s) ++ b2 ++ x)) g1 rest s' g' ->
    chain s g ((u128_le (s_txn s) ++ b2 ++ x) ++ rest) s' g'.

Lemma dec_dr s k (b : bytes) d : List.length b = 64%nat -> dec_dev b = Some d -> d_kind d = k ->
  d_txn d = s_txn s -> d_lck d = crc_finish (s_ck s) -> d_loff d = s_koff s -> d_ltxn d = s_known s ->
  b = dr_bytes s k.
Proof.
  intros L D K T C O N. apply dec_dev_canon in D as [-> _]; auto. rewrite K, T, C, O, N. reflexivity.
Qed.

Lemma meta_ok_inv s l cur ck g d : 
  meta_ok G (mk_rd l cur ck (s_txn s) (s_known s) (s_koff s) (crc_finish (s_ck s)) g) d = true ->
  d_lck d = crc_finish (s_ck s) /\ d_loff d = s_koff s /\ d_ltxn d = s_known s.
Proof.
  unfold meta_ok; jcbn. rewrite !andb_true_iff, !N.eqb_eq. intros [[A B] C]. auto.
Qed.

Lemma seg_firstn (n : nat) (l : bytes) : seg 0 n l = firstn n l.
Proof. reflexivity. Qed.

Lemma rd_of_refresh s b (sfx : bytes) g : 
  r_refresh G (mk_rd sfx (s_off s + len b) (crc_update (s_ck s) b) (s_txn s) (s_known s) (s_koff s) (crc_finish (s_ck s)) g)
  = rd_of (js_next s b) sfx g.
Proof. reflexivity. Qed.

Lemma reopen_inv s l g r : handle_reopen G (rd_of s l g) = SMore r ->
  exists rest, l = dr_bytes s DReopened ++ rest /\ r = rd_of (js_next s (dr_bytes s DReopened)) rest g.
Proof.
  unfold handle_reopen, rd_of. destruct (le_lt_dec 64 (List.length l)) as [H|H].
  2: { rewrite r_read_short by auto. discriminate. }
  destruct (split_at 64 l H) as (b & rest & -> & L & _). rewrite r_read_app by auto.
  destruct (dec_dev b) as [d|] eqn:D; [|discriminate]. destruct (d_kind d) eqn:K; [|discriminate].
  destruct (meta_ok _ _ _) eqn:M; [|discriminate]. cbn [andb]. jcbn.
  destruct (N.eqb_spec (s_txn s) (d_txn d)) as [T|]; [|discriminate].
  apply meta_ok_inv in M as (C & O & N). intros X; injection X as <-.
  pose proof (dec_dr s DReopened b d L D K (eq_sym T) C O N) as Eb.
  exists rest. split; [congruence|]. rewrite <- Eb.
  replace (s_off s + 64) with (s_off s + len b) by (unfold len; rewrite L; reflexivity).
  exact (rd_of_refresh s b rest g).
Qed.

Lemma reopen_not_done s l g r : handle_reopen G (rd_of s l g) <> SDone r.
Proof.
  unfold handle_reopen. destruct (r_read G 64 _) as [[b r1]|]; [|discriminate].
  destruct (dec_dev b) as [d|]; [|discriminate]. destruct (d_kind d); [|discriminate].
  destruct (_ && _); discriminate.
Qed.

Lemma app_inv3 (a b c : bytes) : a ++ b ++ c = (a ++ b) ++ c.
Proof. apply app_assoc. Qed.

Lemma r_step_inv s l g : 
  match r_step (rd_of s l g) with
  | SErr => True
  | SDone r => l = dr_bytes s DClosed /\ r = rd_of (js_next s l) [] g
  | SMore r =>
      (exists rest, l = op_bytes s OCloseReopen ++ rest /\ r = rd_of (js_op s OCloseReopen) rest g) \/
      (exists b2 x rest g1, l = (u128_le (s_txn s) ++ b2 ++ x) ++ rest /\ List.length b2 = 8%nat /\
         N.land (le_dec b2) server_ev_mask <> 0 /\
         adec (N.ldiff (le_dec b2) server_ev_mask) g (x ++ rest) = Some (g1, rest) /\
         r = rd_of (js_next s (u128_le (s_txn s) ++ b2 ++ x)) rest g1)
  end.
Proof.
  unfold r_step. unfold rd_of at 1.
  destruct (le_lt_dec 16 (List.length l)) as [H1|H1].
  2: { rewrite r_read_short by auto. exact I. }
  destruct (split_at 16 l H1) as (b1 & rest1 & -> & L1 & _). rewrite r_read_app by auto.
  destruct (le_lt_dec 8 (List.length rest1)) as [H2|H2].
  2: { rewrite r_read_short by auto. exact I. }
  destruct (split_at 8 rest1 H2) as (b2 & rest2 & -> & L2 & _). rewrite r_read_app by auto. jcbn.
  destruct (N.eqb_spec (le_dec b1) (s_txn s)) as [T|]; cbn [negb]; [|exact I].
  assert (B1 : b1 = u128_le (s_txn s)).
  { rewrite <- T. unfold u128_le. rewrite le_enc_dec_k; auto. }
  destruct (N.eqb_spec (N.land (le_dec b2) server_ev_mask) 0) as [M|M]; cbn [negb].
  - unfold handle_close. destruct (le_lt_dec 40 (List.length rest2)) as [H3|H3].
    2: { rewrite r_read_short by auto. exact I. }
    destruct (split_at 40 rest2 H3) as (b3 & rest3 & -> & L3 & _). rewrite r_read_app by auto.
    destruct (dec_dev _) as [d|] eqn:D; [|exact I]. destruct (d_kind d) eqn:K; [exact I|].
    destruct (meta_ok _ _ _) eqn:MO; [|exact I].
    apply meta_ok_inv in MO as (C & O & N).
    assert (LB : List.length ((b1 ++ b2) ++ b3) = 64%nat) by (rewrite !app_length; lia).
    assert (TD : d_txn d = s_txn s).
    { rewrite <- T. unfold dec_dev in D. 
      destruct (_ || _); [discriminate|]. injection D as <-. cbn [d_txn].
      rewrite <- app_assoc. pose proof (seg_at 0 16 [] b1 (b2 ++ b3) eq_refl L1) as SG. cbn [app] in SG.
      rewrite SG. reflexivity. }
    pose proof (dec_dr s DClosed _ d LB D K TD C O N) as EB.
    replace (b1 ++ b2 ++ b3 ++ rest3) with (((b1 ++ b2) ++ b3) ++ rest3) by (rewrite <- !app_assoc; reflexivity).
    set (blk := (b1 ++ b2) ++ b3) in *.
    replace (r_refresh G _) with (rd_of (js_next s blk) rest3 g).
    2: { rewrite <- rd_of_refresh. f_equal. apply rd_ext; auto.
         - unfold len. rewrite LB. lia.
         - unfold blk. rewrite !crc_update_app. reflexivity. }
    rewrite EB. unfold rd_of at 1. jcbn.
    destruct rest3 as [|x rest3].
    + rewrite app_nil_r. auto.
    + set (s1 := js_next s (dr_bytes s DClosed)).
      destruct (handle_reopen G (rd_of s1 (x :: rest3) g)) as [r|r|] eqn:HR; [| |exact I].
      * apply reopen_inv in HR as (rest4 & E4 & ->). left. exists rest4. rewrite E4.
        cbn [op_bytes js_op]. rewrite <- app_assoc. auto.
      * apply reopen_not_done in HR. destruct HR.
  - unfold r_adapter; jcbn. destruct (adec _ g rest2) as [[g1 rest3]|] eqn:A; [|exact I].
    right. pose proof A as A'. apply adec_suffix in A' as [x ->].
    exists b2, x, rest3, g1. rewrite <- B1. rewrite <- !app_assoc.
    repeat split; auto.
    rewrite app_length. replace (List.length x + List.length rest3 - List.length rest3)%nat with (List.length x) by lia.
    rewrite firstn_len_app by reflexivity. rewrite <- rd_of_refresh. f_equal. apply rd_ext; auto.
    + rewrite !len_app. unfold len. rewrite L1, L2. lia.
    + rewrite !crc_update_app. reflexivity.
Qed.

Lemma scan_chain n : forall s l g r, (List.length l <= n)%nat -> scan (rd_of s l g) = JOk r ->
  exists s' g', chain s g l s' g' /\ r = rd_of s' [] g'.
Proof.
  induction n as [|n IH]; intros s l g r L H; rewrite scan_eq in H; pose proof (r_step_inv s l g) as SI;
    destruct (r_step (rd_of s l g)) as [r1|r1|] eqn:S; try discriminate.
  - apply r_step_shrinks in S. cbn [rd_of r_rest] in S. lia.
  - injection H as <-. destruct SI as [-> ->]. eauto using ch_close.
  - apply r_step_shrinks in S.
    destruct SI as [(rest & -> & ->)|(b2 & x & rest & g1 & -> & L2 & M & A & ->)]; cbn [rd_of r_rest] in S.
    + apply IH in H as (s' & g' & C & ->); [|lia]. eauto using ch_reopen.
    + apply IH in H as (s' & g' & C & ->); [|lia]. exists s', g'. split; auto. eapply ch_srv; eauto.
  - injection H as <-. destruct SI as [-> ->]. eauto using ch_close.
Qed.

Lemma chain_last s g l s' g' : chain s g l s' g' ->
  exists pre s1, l = pre ++ dr_bytes s1 DClosed /\ s_ck s1 = crc_update (s_ck s) pre.
Proof.
  induction 1 as [s g|s g rest s' g' C (pre & s1 & -> & K)|s g b2 x rest g1 s' g' L M A C (pre & s1 & -> & K)].
  - exists [], s. split; auto.
  - exists (op_bytes s OCloseReopen ++ pre), s1. rewrite <- app_assoc. split; [reflexivity|].
    rewrite K. cbn [js_op op_bytes]. unfold js_next; scbn. rewrite !crc_update_app. reflexivity.
  - exists ((u128_le (s_txn s) ++ b2 ++ x) ++ pre), s1. rewrite <- !app_assoc. split; [reflexivity|].
    rewrite K. unfold js_next; scbn. rewrite !crc_update_app. reflexivity.
Qed.

(** ** Damage: a file of the same length that still opens and whose bytes before the final close
    record are those of a cleanly closed file is that file. *)
Lemma scan_same_prefix ops s g (c : bytes) r : js_wf s -> Forall op_ok ops ->
  s_off s + len (ops_bytes s ops) + 64 < two64 -> List.length c = 64%nat ->
  scan (rd_of s (ops_bytes s ops ++ c) g) = JOk r ->
  c = dr_bytes (js_ops s ops) DClosed.
Proof.
  intros W A O L H. rewrite scan_ops in H by (auto; lia).
  destruct (replay (events ops) g) as [g'|]; [|discriminate].
  set (s1 := js_ops s ops) in *. rewrite scan_eq in H. pose proof (r_step_inv s1 c g') as SI.
  destruct (r_step (rd_of s1 c g')) as [r1|r1|] eqn:S; try discriminate.
  - exfalso. apply r_step_shrinks in S. 
    destruct (le_lt_dec 64 (List.length (r_rest G r1))) as [B|B]. { cbn [rd_of r_rest] in S. lia. }
    assert (X : forall s l g r, (List.length l < 64)%nat -> scan (rd_of s l g) <> JOk r).
    { intros s2 l2 g2 r2 L2 H2. apply (scan_chain (List.length l2)) in H2 as (s' & g'' & C & _); [|lia].
      apply chain_last in C as (pre & s3 & -> & _). rewrite app_length, dr_length in L2. lia. }
    destruct SI as [(rest & _ & ->)|(b2 & x & rest & g1 & _ & _ & _ & _ & ->)]; cbn [rd_of r_rest] in B;
      apply X in H; auto.
  - destruct SI as [-> _]. reflexivity.
Qed.

Lemma burst_detected ops g (p a b q : bytes) r : Forall op_ok ops ->
  64 + len (ops_bytes js0 ops) + 64 < two64 ->
  ops_bytes js0 ops ++ dr_bytes (js_ops js0 ops) DClosed = p ++ a ++ q ->
  List.length b = List.length a -> (List.length a <= 8)%nat -> a <> b ->
  scan (rd_of js0 (p ++ b ++ q) g) <> JOk r.
Proof.
  intros A O EF LB L8 NE H. set (s1 := js_ops js0 ops) in *. set (body := ops_bytes js0 ops) in *.
  pose proof H as H'. apply (scan_chain _ _ _ _ _ (le_n _)) in H' as (s' & g' & C & _).
  apply chain_last in C as (pre & s2 & EF' & K2).
  pose proof (f_equal (@List.length byte) EF) as LE. rewrite !app_length, dr_length in LE.
  pose proof (f_equal (@List.length byte) EF') as LE'. rewrite !app_length, dr_length in LE'.
  destruct (le_lt_dec (List.length body) (List.length p)) as [LP|LP].
  - (* damage inside the final close record *)
    destruct (app_eq_split _ _ _ _ EF LP) as (m & Hp & Hm).
    assert (Hpre : pre = body).
    { rewrite Hp, <- app_assoc in EF'. apply app_inj_len in EF' as [-> _]; auto. lia. }
    rewrite Hp, <- app_assoc in H.
    apply scan_same_prefix in H; auto using js0_wf; try (unfold js0; scbn; lia).
    2: { rewrite !app_length. apply (f_equal (@List.length byte)) in Hm. rewrite dr_length, !app_length in Hm. lia. }
    fold s1 in H. rewrite Hm in H. apply app_inv_head in H. apply app_inj_len in H as [Hab _]; auto.
  - (* damage starts before it *)
    destruct (le_lt_dec (List.length body) (List.length (p ++ a))) as [LQ|LQ].
    + (* straddling: only the first seven bytes of the record can be touched *)
      rewrite !app_length in *.
      assert (exists a1 a2 b1 b2, a = a1 ++ a2 /\ b = b1 ++ b2 /\ List.length a1 = List.length b1 /\
                (List.length a2 <= 7)%nat /\
                body = p ++ a1 /\ dr_bytes s1 DClosed = a2 ++ q /\ pre = p ++ b1 /\ dr_bytes s2 DClosed = b2 ++ q) as
        (a1 & a2 & b1 & b2 & Ea & Eb & L1 & L2 & Hbody & Hc & Hpre & Hc2).
      { exists (firstn (List.length body - List.length p) a), (skipn (List.length body - List.length p) a),
               (firstn (List.length body - List.length p) b), (skipn (List.length body - List.length p) b).
        rewrite !firstn_skipn, !firstn_length, !skipn_length.
        rewrite <- (firstn_skipn (List.length body - List.length p) a) in EF.
        rewrite <- (firstn_skipn (List.length body - List.length p) b) in EF'.
        replace (p ++ (firstn (List.length body - List.length p) a ++ skipn (List.length body - List.length p) a) ++ q)
          with ((p ++ firstn (List.length body - List.length p) a) ++ skipn (List.length body - List.length p) a ++ q) in EF
          by (rewrite <- !app_assoc; reflexivity).
        replace (p ++ (firstn (List.length body - List.length p) b ++ skipn (List.length body - List.length p) b) ++ q)
          with ((p ++ firstn (List.length body - List.length p) b) ++ skipn (List.length body - List.length p) b ++ q) in EF'
          by (rewrite <- !app_assoc; reflexivity).
        apply app_inj_len in EF as [X1 X2]; [|rewrite app_length, firstn_length; lia].
        apply app_inj_len in EF' as [Y1 Y2]; [|rewrite app_length, firstn_length; lia].
        repeat split; auto; try lia. }
      assert (HQ : crc_finish (s_ck s1) = crc_finish (s_ck s2)).
      { assert (F : forall s (x : bytes), dr_bytes s DClosed = x ++ q -> (List.length x <= 7)%nat ->
           firstn 8 (skipn (40 - List.length x) q) = u64_le (crc_finish (s_ck s))).
        { clear. intros s x Hx L.
          assert (S : seg 40 8 (dr_bytes s DClosed) = u64_le (crc_finish (s_ck s))).
          { rewrite dr_split. unfold dev_payload. set (c1 := u64_le (crc64 _)).
            replace (u128_le (s_txn s) ++ u64_le (dkind_code DClosed) ++ c1 ++ u64_le 3 ++ u64_le (crc_finish (s_ck s)) ++ u64_le (s_koff s) ++ u64_le (s_known s))
              with ((u128_le (s_txn s) ++ u64_le (dkind_code DClosed) ++ c1 ++ u64_le 3) ++ u64_le (crc_finish (s_ck s)) ++ (u64_le (s_koff s) ++ u64_le (s_known s)))
              by (rewrite <- !app_assoc; reflexivity).
            apply seg_at; [|apply u64_len]. unfold c1. rewrite !app_length, u128_len, !u64_len. reflexivity. }
          rewrite Hx in S. unfold seg in S. rewrite skipn_app in S.
          rewrite (skipn_all2 x) in S by lia. exact S. }
        assert (La2 : List.length a2 = List.length b2).
        { apply (f_equal (@List.length byte)) in Hc, Hc2. rewrite dr_length, app_length in Hc, Hc2. lia. }
        pose proof (F s1 a2 Hc L2) as F1. pose proof (F s2 b2 Hc2 ltac:(lia)) as F2.
        rewrite La2, F2 in F1.
        assert (B : forall s, js_wf s -> crc_finish (s_ck s) < two64).
        { intros s (_ & _ & _ & D & _). apply crc_finish_lt; auto. }
        apply (le_enc_inj 8) in F1; [symmetry; exact F1| |].
        - rewrite K2. apply crc_finish_lt, crc_update_lt, crc_new_lt.
        - apply B, js_ops_wf, js0_wf. }
      rewrite K2 in HQ.
      assert (KS : forall ops s, s_ck (js_ops s ops) = crc_update (s_ck s) (ops_bytes s ops)).
      { clear. induction ops as [|o ops IH]; intros s; [reflexivity|].
        cbn [js_ops fold_left ops_bytes]. change (fold_left js_op ops (js_op s o)) with (js_ops (js_op s o) ops).
        rewrite IH, crc_update_app. f_equal. destruct o; cbn [js_op op_bytes]; unfold js_next; scbn; rewrite ?crc_update_app; reflexivity. }
      unfold s1 in HQ. rewrite KS in HQ. fold body in HQ. rewrite Hbody, Hpre in HQ.
      change (crc_finish (crc_update (s_ck js0) ?x)) with (crc64 x) in HQ.
      assert (EAB : a1 = b1).
      { destruct (bytes_eq_dec a1 b1) as [|NE1]; auto. exfalso.
        pose proof (crc64_burst p a1 b1 [] L1) as X. rewrite !app_nil_r in X. apply X; auto.
        rewrite Ea, app_length in L8. lia. }
      subst b1.
      (* then the damage is inside the record *)
      rewrite Eb in H.
      replace (p ++ (a1 ++ b2) ++ q) with ((p ++ a1) ++ b2 ++ q) in H by (rewrite <- !app_assoc; reflexivity).
      rewrite <- Hbody in H.
      apply scan_same_prefix in H; auto using js0_wf; try (unfold js0; scbn; lia).
      2: { rewrite <- Hc2. apply dr_length. }
      fold s1 in H. rewrite Hc in H. apply app_inv_tail in H. subst. apply NE. reflexivity.
    + (* entirely before it *)
      rewrite app_assoc in EF, EF'. rewrite !app_length in LQ.
      symmetry in EF. apply app_eq_split in EF as (m & Hb & Hq); [|rewrite app_length; lia].
      assert (Hpre : pre = (p ++ b) ++ m /\ dr_bytes s2 DClosed = dr_bytes s1 DClosed).
      { rewrite Hq, app_assoc in EF'.
        apply app_inj_len in EF' as [X Y]; auto. rewrite !app_length.
        apply (f_equal (@List.length byte)) in Hb. rewrite !app_length in Hb. lia. }
      destruct Hpre as [Hpre HD].
      assert (HQ : crc_finish (s_ck s1) = crc_finish (s_ck s2)).
      { unfold dr_bytes in HD. unfold enc_dev, dev_payload in HD.
        assert (LL : forall x, List.length (u64_le x) = 8%nat) by apply u64_len.
        apply app_inj_len in HD as [_ HD]; [|rewrite !u128_len; auto].
        apply app_inj_len in HD as [_ HD]; [|rewrite !LL; auto].
        apply app_inj_len in HD as [_ HD]; [|rewrite !LL; auto].
        apply app_inj_len in HD as [_ HD]; [|rewrite !LL; auto].
        apply app_inj_len in HD as [HD _]; [|rewrite !LL; auto].
        apply (le_enc_inj 8) in HD; [symmetry; exact HD| |].
        - rewrite K2. apply crc_finish_lt, crc_update_lt, crc_new_lt.
        - assert (W1 : js_wf s1) by (apply js_ops_wf, js0_wf). destruct W1 as (_ & _ & _ & D & _).
          apply crc_finish_lt; auto. }
      assert (KS : forall ops s, s_ck (js_ops s ops) = crc_update (s_ck s) (ops_bytes s ops)).
      { clear. induction ops as [|o ops IH]; intros s; [reflexivity|].
        cbn [js_ops fold_left ops_bytes]. change (fold_left js_op ops (js_op s o)) with (js_ops (js_op s o) ops).
        rewrite IH, crc_update_app. f_equal. destruct o; cbn [js_op op_bytes]; unfold js_next; scbn; rewrite ?crc_update_app; reflexivity. }
      rewrite K2 in HQ. unfold s1 in HQ. rewrite KS in HQ. fold body in HQ. rewrite Hb, Hpre in HQ.
      change (crc_finish (crc_update (s_ck js0) ?x)) with (crc64 x) in HQ.
      rewrite <- !app_assoc in HQ. revert HQ. apply crc64_burst; auto.
Qed.

Lemma ops_bytes_app a b : forall s, ops_bytes s (a ++ b) = ops_bytes s a ++ ops_bytes (js_ops s a) b.
Proof.
  induction a as [|o a IH]; intros s; [reflexivity|]. cbn [app ops_bytes]. rewrite IH, <- app_assoc. reflexivity.
Qed.
Lemma js_ops_app a b s : js_ops s (a ++ b) = js_ops (js_ops s a) b.
Proof. apply fold_left_app. Qed.
Lemma events_app a b : events (a ++ b) = events a ++ events b.
Proof. apply flat_map_app. Qed.

Lemma js_ops_ck ops : forall s, s_ck (js_ops s ops) = crc_update (s_ck s) (ops_bytes s ops).
Proof.
  induction ops as [|o ops IH]; intros s; [reflexivity|].
  cbn [js_ops fold_left ops_bytes]. change (fold_left js_op ops (js_op s o)) with (js_ops (js_op s o) ops).
  rewrite IH, crc_update_app. f_equal. destruct o; cbn [js_op op_bytes]; unfold js_next; scbn; rewrite ?crc_update_app; reflexivity.
Qed.

(** the file of a cleanly closed journal *)
Definition closed_file (hdr : bytes) (ops : list op) : bytes :=
  hdr ++ ops_bytes js0 ops ++ dr_bytes (js_ops js0 ops) DClosed.
(** the file of a journal in use *)
Definition live_file (hdr : bytes) (ops : list op) : bytes := hdr ++ ops_bytes js0 ops.

Lemma live_reopened hdr ops : live_file hdr (ops ++ [OCloseReopen])
  = closed_file hdr ops ++ dr_bytes (js_next (js_ops js0 ops) (dr_bytes (js_ops js0 ops) DClosed)) DReopened.
Proof.
  unfold live_file, closed_file. rewrite ops_bytes_app. cbn [ops_bytes op_bytes]. rewrite app_nil_r, <- !app_assoc. reflexivity.
Qed.

Definition hdr_ok (b : build) (sp : filespec) (hdr : bytes) : Prop :=
  List.length hdr = 64%nat /\ exists h, open_header b sp hdr = HOk h.

Lemma split_header_app b sp hdr body : hdr_ok b sp hdr -> split_header b sp (hdr ++ body) = Some body.
Proof.
  intros [L [h H]]. unfold split_header. rewrite (take_app_k header_size) by auto. rewrite H. reflexivity.
Qed.

Lemma open_ok b sp hdr ops g g' : hdr_ok b sp hdr -> Forall op_ok ops -> 0 < cap ->
  len (closed_file hdr ops) < two64 -> replay (events ops) g = Some g' ->
  exists j, j_open G adec b sp [] (closed_file hdr ops) g = JOk (g', (j, WOk)) /\
    jw_of j (js_ops js0 (ops ++ [OCloseReopen])) (live_file hdr (ops ++ [OCloseReopen])).
Proof.
  intros Hh A Hc L R. pose proof Hh as [Hl _]. unfold j_open, closed_file in *. rewrite split_header_app by auto.
  rewrite !len_app in L. assert (LH : len hdr = 64) by (unfold len; rewrite Hl; reflexivity). rewrite LH, dr_len in L.
  rewrite scroll_scan, (scan_closed ops js0 g g'); auto using js0_wf.
  2: { unfold js_next; scbn. rewrite js_ops_off, dr_len. unfold js0 at 1; scbn. lia. }
  set (s1 := js_ops js0 ops) in *. set (s2 := js_next s1 (dr_bytes s1 DClosed)) in *.
  unfold rd_of; jcbn. unfold jw_new.
  assert (W1 : js_wf s1) by (apply js_ops_wf, js0_wf).
  assert (W2 : js_wf s2) by (apply js_next_wf; auto; rewrite dr_len; lia).
  assert (O2 : s_off s2 = len (closed_file hdr ops)).
  { unfold s2, js_next; scbn. unfold s1 at 1. rewrite js_ops_off. unfold closed_file. rewrite !len_app, LH, !dr_len. unfold js0; scbn. lia. }
  assert (K2 : s_koff s2 =? 0 = false). { unfold s2, js_next; scbn. rewrite dr_len. apply N.eqb_neq. lia. }
  rewrite K2.
  assert (J : jw_of (mk_jw (tw_new [] (closed_file hdr ops) (s_off s2) (s_ck s2)) (s_txn s2) (s_txn s2 - 1) (s_koff s2)) s2 (closed_file hdr ops)).
  { unfold jw_of, tw_new; jcbn. cbn [w_buf w_file w_ck]. repeat split; auto.
    - cbn [w_file w_buf]. rewrite app_nil_r. reflexivity.
    - cbn [w_buf]. rewrite len_nil. lia.
    - cbn [w_env]. apply atomic_nil.
    - symmetry. apply W2. }
  destruct (driver_ok _ _ _ DReopened J) as (j' & E' & J').
  change (hdr ++ ops_bytes js0 ops ++ dr_bytes s1 DClosed) with (closed_file hdr ops). rewrite E'.
  exists j'. split; [reflexivity|]. rewrite live_reopened. fold s1 s2. rewrite js_ops_app. exact J'.
Qed.

Lemma create_ok hdr : List.length hdr = 64%nat ->
  exists j, j_create [] hdr = (j, WOk) /\ jw_of j js0 (live_file hdr []).
Proof.
  intros L. unfold j_create, jw_new. rewrite N.eqb_refl. eexists. split; [reflexivity|].
  unfold live_file. cbn [ops_bytes]. rewrite app_nil_r.
  assert (LH : len hdr = 64) by (unfold len; rewrite L; reflexivity).
  unfold jw_of, tw_new, js0; jcbn; scbn. cbn [w_buf w_file w_ck]. repeat split; auto.
  - cbn [w_file w_buf]. rewrite app_nil_r. reflexivity.
  - cbn [w_buf]. rewrite len_nil. lia.
  - cbn [w_env]. apply atomic_nil.
Qed.

(** commits one after another *)
Fixpoint commits (j : jw) (evs : list E) : jw * wres :=
  match evs with
  | [] => (j, WOk)
  | e :: evs' => match j_commit cap E ameta acommit j e with (j', WOk) => commits j' evs' | x => x end
  end.

Lemma commits_ok evs : forall j hdr ops, jw_of j (js_ops js0 ops) (live_file hdr ops) -> Forall aok evs ->
  exists j', commits j evs = (j', WOk) /\
    jw_of j' (js_ops js0 (ops ++ map OEv evs)) (live_file hdr (ops ++ map OEv evs)).
Proof.
  induction evs as [|e evs IH]; intros j hdr ops J A; cbn [commits map].
  - rewrite app_nil_r. eauto.
  - inversion A; subst. destruct (commit_ok _ _ _ e J) as (j1 & E1 & J1); auto. rewrite E1.
    replace (ops ++ OEv e :: map OEv evs) with ((ops ++ [OEv e]) ++ map OEv evs) by (rewrite <- app_assoc; reflexivity).
    apply IH; auto. unfold live_file in *. rewrite ops_bytes_app, js_ops_app. cbn [ops_bytes op_bytes].
    rewrite app_nil_r, app_assoc. exact J1.
Qed.

Lemma close_ok j hdr ops : jw_of j (js_ops js0 ops) (live_file hdr ops) ->
  exists j', j_close j = (j', WOk) /\ w_file (j_w j') = closed_file hdr ops.
Proof.
  intros J. destruct (driver_ok _ _ _ DClosed J) as (j' & E' & J'). exists j'. split; auto.
  destruct J' as (_ & _ & F & _). rewrite F. unfold live_file, closed_file. rewrite <- app_assoc. reflexivity.
Qed.
End Proofs.
