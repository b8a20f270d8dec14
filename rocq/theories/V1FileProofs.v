(** Reading the data files of the old format. *)
From Coq Require Import List Arith NArith Bool Lia.
From Verif Require Import Bytes AMap DataModel CodecModel CodecProofs CrcModel GnsCodecModel GnsModel RowModel BatchModel
  BatchCodec V1Model V1Spec.
Import ListNotations.
Local Open Scope N_scope.

(** ** one value *)
Lemma p_u64_enc n r : n < two64 -> p_u64 (u64_le n ++ r) = POk n r.
Proof. intros H. unfold p_u64. rewrite (take_app_k 8 _ _ (u64_len n)), u64_dec by assumption. reflexivity. Qed.

Lemma p_block_enc b r : p_block (len b) (b ++ r) = POk b r.
Proof. unfold p_block. rewrite takeN_app. reflexivity. Qed.

Section File.
Variable utf8 : bytes -> bool.

Lemma p_pkey_enc t k r : key_wf utf8 t k -> p_pkey utf8 (tuniq_code t) (concat (key_pieces k) ++ r) = POk k r.
Proof.
  intros W. unfold p_pkey. destruct t, k; cbn [key_wf] in W; try contradiction; rewrite dec_tuniq_code by congruence;
    cbn [key_pieces concat]; rewrite ?app_nil_r, <- ?app_assoc.
  - rewrite p_u64_enc by assumption. reflexivity.
  - rewrite p_u64_enc by assumption. reflexivity.
  - rewrite p_u64_enc by assumption. cbn [pbind]. rewrite p_block_enc. reflexivity.
  - destruct W as [W U]. rewrite p_u64_enc by assumption. cbn [pbind]. rewrite p_block_enc. cbn [pbind]. rewrite U. reflexivity.
Qed.

Lemma p_cell_enc c r : cell_wf utf8 c -> p_cell utf8 (enc_full c ++ r) = POk c r.
Proof.
  intros W. unfold p_cell, enc_full. cbn [app p_byte pbind].
  pose proof (dec_cell_roundtrip utf8 SrcRead c r W) as E.
  assert (V : dscr_valid (b2n (enc_tag c)) = true) by (destruct c as [| | q w | | |]; [..]; try destruct q; reflexivity).
  rewrite V. cbn [negb]. rewrite E. reflexivity.
Qed.

Lemma enc_full_length c : (1 <= length (enc_full c))%nat.
Proof. cbn [enc_full length]. lia. Qed.

Lemma p_cells_enc cs : Forall (cell_wf utf8) cs -> forall f r, (length (concat (map enc_full cs) ++ r) < f)%nat ->
  p_cells utf8 f (N.of_nat (length cs)) (concat (map enc_full cs) ++ r) = POk cs r.
Proof.
  induction 1 as [|c cs W Ws IH]; intros f r F; destruct f as [|f]; try (cbn [length] in F; lia).
  - reflexivity.
  - cbn [p_cells]. destruct (N.of_nat (length (c :: cs)) =? 0) eqn:E; [apply N.eqb_eq in E; cbn [length] in E; lia|].
    replace (N.of_nat (length (c :: cs)) - 1) with (N.of_nat (length cs)) by (cbn [length]; lia).
    cbn [map concat] in *. rewrite <- app_assoc in *.
    destruct (enc_full c ++ concat (map enc_full cs) ++ r) as [|x l] eqn:EL; [discriminate EL|]. rewrite <- EL in *.
    rewrite p_cell_enc by assumption. cbn [pbind]. rewrite IH; [reflexivity|].
    rewrite app_length in F. pose proof (enc_full_length c). lia.
Qed.

Lemma enc_bev_length e : (9 <= length (enc_bev e))%nat.
Proof.
  rewrite enc_bev_split. cbn [length app]. rewrite ?app_length, u64_len. lia.
Qed.

(** ** one batch *)
Lemma p_evs_enc t cols es : Forall (bev_wf utf8 t cols) es -> forall f n r,
  (length (concat (map enc_bev es) ++ r) < f)%nat -> N.of_nat (length es) <= n ->
  p_evs utf8 f (tuniq_code t) cols n (concat (map enc_bev es) ++ MK_END :: r) =
  if N.of_nat (length es) =? n then POk (es, false) (MK_END :: r) else POk (es, true) r.
Proof.
  induction 1 as [|e es W Ws IH]; intros f n r F L; destruct f as [|f]; try (cbn [length] in F; lia).
  - cbn [map concat app length N.of_nat p_evs] in *. rewrite (N.eqb_sym 0). destruct (n =? 0) eqn:E; reflexivity.
  - cbn [map concat p_evs] in *. rewrite <- app_assoc in *. rewrite app_length in F. pose proof (enc_bev_length e) as LB.
    destruct (n =? 0) eqn:E; [apply N.eqb_eq in E; cbn [length] in L; lia|]. apply N.eqb_neq in E.
    destruct W as (W1 & W2 & W3). rewrite enc_bev_split. rewrite <- ?app_assoc. cbn [app].
    assert (NK : beq (kind_code (be_kind e)) MK_END = false) by (destruct (be_kind e); reflexivity).
    rewrite NK, <- ?app_assoc, p_u64_enc by assumption. cbn [pbind]. rewrite kind_code_n.
    assert (EQN : (N.of_nat (length (e :: es)) =? n) = (N.of_nat (length es) =? n - 1)).
    { cbn [length]. destruct (N.of_nat (length es) =? n - 1) eqn:Q; [apply N.eqb_eq in Q; apply N.eqb_eq; lia | apply N.eqb_neq in Q; apply N.eqb_neq; lia]. }
    rewrite EQN. clear EQN. destruct e as [k tx key cs]; cbn [be_kind be_txn be_key be_cells] in *.
    destruct k; cbn [kind_code].
    + subst cs. cbn [map concat app]. rewrite p_pkey_enc by assumption. cbn [pbind]. rewrite IH; [|lia | cbn [length] in L; lia].
      destruct (_ =? _); reflexivity.
    + destruct W3 as [W3 W4]. rewrite p_pkey_enc by assumption. cbn [pbind]. rewrite <- W3, p_cells_enc by (assumption || lia).
      cbn [pbind]. rewrite W3, IH; [|lia | cbn [length] in L; lia]. destruct (_ =? _); reflexivity.
    + destruct W3 as [W3 W4]. rewrite p_pkey_enc by assumption. cbn [pbind]. rewrite <- W3, p_cells_enc by (assumption || lia).
      cbn [pbind]. rewrite W3, IH; [|lia | cbn [length] in L; lia]. destruct (_ =? _); reflexivity.
Qed.

Lemma crc64_bound l : crc64 l < two64.
Proof. apply CrcProofs.crc64_lt. Qed.

(** reading a batch and its summary *)
Lemma p_batch_enc b r : batch_wf utf8 b -> exists early l1,
  p_batch utf8 (v1_batch_bytes b ++ r) = POk (BtEvents early (ba_schema b) (ba_evs b)) l1 /\
  p_summary (v1_batch_bytes b ++ r) early l1 = POk (ev_count b) r.
Proof.
  intros (W1 & W2 & W3 & W4 & W5 & W6).
  assert (CB : ev_count b < two64) by lia.
  assert (EB : v1_batch_bytes b ++ r = MK_BATCH :: tuniq_code (ba_tag b) :: u64_le (ba_want b) ++ u64_le (ba_schema b)
     ++ u64_le (ba_cols b) ++ concat (map enc_bev (ba_evs b)) ++ MK_END :: u64_le (ev_count b) ++ u64_le (crc64 (v1_batch_body b)) ++ r).
  { unfold v1_batch_bytes, v1_batch_body. cbn [app]. rewrite <- ?app_assoc. cbn [app]. rewrite <- ?app_assoc. reflexivity. }
  set (tl := u64_le (ev_count b) ++ u64_le (crc64 (v1_batch_body b)) ++ r) in *.
  exists (negb (ev_count b =? ba_want b)), (if ev_count b =? ba_want b then MK_END :: tl else tl).
  split.
  - rewrite EB. unfold p_batch. cbn [p_byte pbind]. change (beq MK_BATCH MK_BATCH) with true. cbn match.
    rewrite p_u64_enc by assumption. cbn [pbind]. rewrite p_u64_enc by assumption. cbn [pbind].
    rewrite p_u64_enc by assumption. cbn [pbind].
    rewrite p_evs_enc; [|assumption | rewrite !app_length; cbn [length]; lia | exact W2].
    change (N.of_nat (length (ba_evs b))) with (ev_count b). destruct (ev_count b =? ba_want b); reflexivity.
  - assert (S : forall l : pr byte, (exists u, l = POk u tl) -> 
      (let+ (_u, l1) := l in let+ (n, l2) := p_u64 l1 in
       match take 8 l2 with None => PErr l2 | Some (ck, l3) =>
         if crc64 (firstn (length (v1_batch_bytes b ++ r) - length l2) (v1_batch_bytes b ++ r)) =? le_dec ck then POk n l3 else PErr l3 end) =
      @POk N (ev_count b) r).
    { intros l [u ->]. cbn [pbind]. unfold tl. rewrite p_u64_enc by assumption. cbn [pbind].
      rewrite (take_app_k 8 _ _ (u64_len _)), u64_dec by apply crc64_bound.
      unfold v1_batch_bytes. rewrite <- app_assoc, firstn_body, N.eqb_refl. reflexivity. }
    unfold p_summary. destruct (ev_count b =? ba_want b); cbn [negb].
    + apply S. cbn [p_byte pbind]. change (beq MK_END MK_END) with true. eexists. reflexivity.
    + apply S. eexists. reflexivity.
Qed.

(** ** a whole file *)
Section Apply.
Variable St : Type.
Variable apply : St -> N -> list bev -> option St.

(** the batches applied in order *)
Fixpoint fold_batches (s : St) (l : list (N * list bev)) : option St :=
  match l with
  | [] => Some s
  | b :: l' => match apply s (fst b) (snd b) with None => None | Some s' => fold_batches s' l' end
  end.

Definition fop_wf (o : fop) : Prop := match o with FBatch b => batch_wf utf8 b | _ => True end.

Lemma batch_bytes_cons b r : exists l, v1_batch_bytes b ++ r = MK_BATCH :: l.
Proof. eexists. unfold v1_batch_bytes, v1_batch_body. cbn [app]. reflexivity. Qed.

Lemma p_file_fop o s rest f : fop_wf o -> rest <> [] ->
  p_file utf8 apply (S f) s (fop_bytes o ++ rest) =
  match fold_batches s (batches [o]) with None => VrDie | Some s' => p_file utf8 apply f s' rest end.
Proof.
  intros W N. destruct o as [b | |]; cbn [fop_bytes batches flat_map app fold_batches fst snd fop_wf] in *.
  - destruct (p_batch_enc b rest W) as (early & l1 & E1 & E2).
    destruct (batch_bytes_cons b rest) as (l & EL).
    cbn [p_file]. rewrite E1, E2. rewrite EL.
    change (N.of_nat (length (ba_evs b))) with (ev_count b). rewrite N.eqb_refl. cbn [negb].
    destruct (apply s (ba_schema b) (ba_evs b)); reflexivity.
  - reflexivity.
  - reflexivity.
Qed.

Lemma fold_batches_app l : forall s l', fold_batches s (l ++ l') =
  match fold_batches s l with None => None | Some s' => fold_batches s' l' end.
Proof.
  induction l as [|b l IH]; intros s l'; [reflexivity|]. cbn [app fold_batches].
  destruct (apply s (fst b) (snd b)); [apply IH | reflexivity].
Qed.

Lemma p_file_ops l : forall s rest f, Forall fop_wf l -> rest <> [] ->
  p_file utf8 apply (length l + f) s (concat (map fop_bytes l) ++ rest) =
  match fold_batches s (batches l) with None => VrDie | Some s' => p_file utf8 apply f s' rest end.
Proof.
  induction l as [|o l IH]; intros s rest f W N; [reflexivity|].
  inversion W as [|? ? W1 W2]; subst. cbn [map concat length plus]. rewrite <- app_assoc.
  rewrite p_file_fop; [|assumption|].
  - change (o :: l) with ([o] ++ l). unfold batches at 2. rewrite flat_map_app. fold (batches [o]) (batches l). rewrite fold_batches_app.
    destruct (fold_batches s (batches [o])); [apply IH; assumption | reflexivity].
  - intros X. apply app_eq_nil in X as [_ X]. congruence.
Qed.

Lemma fop_bytes_len o : (1 <= length (fop_bytes o))%nat.
Proof. destruct o; cbn [fop_bytes length]; try lia. unfold v1_batch_bytes, v1_batch_body. rewrite app_length. cbn [length]. lia. Qed.

Lemma fops_len l : (length l <= length (concat (map fop_bytes l)))%nat.
Proof. induction l as [|o l IH]; cbn [map concat length]; [lia|]. rewrite app_length. pose proof (fop_bytes_len o). lia. Qed.

Theorem read_closed_data l s : Forall fop_wf l ->
  v1_read_file utf8 apply s (closed_data l) =
  match fold_batches s (batches l) with None => VrDie | Some s' => VrOk s' end.
Proof.
  intros W. unfold v1_read_file, closed_data.
  assert (FL : exists k, S (length (concat (map fop_bytes l) ++ [MK_CLOSED])) = (length l + S k)%nat).
  { exists (length (concat (map fop_bytes l) ++ [MK_CLOSED]) - length l)%nat. rewrite app_length. pose proof (fops_len l). lia. }
  destruct FL as [k ->]. rewrite p_file_ops by (assumption || congruence).
  destruct (fold_batches s (batches l)); reflexivity.
Qed.
End Apply.

(** ** cuts *)
(** errors leave a part of what was there *)
Definition sfx (a b : bytes) : Prop := exists x, b = x ++ a.
Lemma sfx_refl a : sfx a a. Proof. exists []. reflexivity. Qed.
Lemma sfx_trans a b c : sfx a b -> sfx b c -> sfx a c.
Proof. intros [x ->] [y ->]. exists (y ++ x). rewrite app_assoc. reflexivity. Qed.
Lemma sfx_cons x a b : sfx a b -> sfx a (x :: b).
Proof. intros [y ->]. exists (x :: y). reflexivity. Qed.

Definition rest_of {A} (x : pr A) : option bytes := match x with POk _ l | PErr l => Some l | PUb => None end.
Definition psfx {A} (x : pr A) (l : bytes) : Prop := match rest_of x with Some l' => sfx l' l | None => True end.

Lemma psfx_bind {A B} (x : pr A) (f : A -> bytes -> pr B) l :
  psfx x l -> (forall a l', x = POk a l' -> psfx (f a l') l') -> psfx (pbind x f) l.
Proof.
  intros X F. destruct x as [a l' | l' |]; cbn [pbind]; [|exact X | exact I].
  specialize (F a l' eq_refl). unfold psfx in *. cbn [rest_of] in X. destruct (rest_of (f a l')); [|exact I].
  exact (sfx_trans _ _ _ F X).
Qed.

Lemma p_byte_sfx l : psfx (p_byte l) l.
Proof. destruct l; cbn; [apply sfx_refl | apply sfx_cons, sfx_refl]. Qed.
Lemma p_u64_sfx l : psfx (p_u64 l) l.
Proof.
  unfold p_u64, psfx. destruct (take 8 l) as [[a b]|] eqn:E; cbn [rest_of]; [|apply sfx_refl].
  apply take_some in E as [-> _]. exists a. reflexivity.
Qed.
Lemma p_block_sfx n l : psfx (p_block n l) l.
Proof.
  unfold p_block, psfx. destruct (takeN n l) as [[a b]|] eqn:E; cbn [rest_of]; [|apply sfx_refl].
  apply takeN_some in E as [-> _]. exists a. reflexivity.
Qed.

Lemma fail_sfx f : (forall d l, sfx (fail_elem utf8 f d l) l) /\ (forall n l, sfx (fail_items utf8 f n l) l).
Proof.
  induction f as [|f [IH1 IH2]]; split; intros; cbn [fail_elem fail_items]; try apply sfx_refl.
  - destruct (d =? 15); [apply sfx_refl|].
    assert (T : forall k, match take 8 l with None => sfx l l | Some (n, l1) => sfx (k n l1) l1 end ->
      sfx (match take 8 l with None => l | Some (n, l1) => k n l1 end) l).
    { intros k H. destruct (take 8 l) as [[a b]|] eqn:E; [|exact H]. apply take_some in E as [-> _].
      apply (sfx_trans _ b); [exact H | exists a; reflexivity]. }
    assert (BL : sfx (match take 8 l with None => l | Some (n, l1) => match takeN (le_dec n) l1 with None => l1 | Some (_, l2) => l2 end end) l).
    { apply (T (fun n l1 => match takeN (le_dec n) l1 with None => l1 | Some (_, l2) => l2 end)).
      destruct (take 8 l) as [[a b]|]; [|apply sfx_refl].
      destruct (takeN (le_dec a) b) as [[c d']|] eqn:E; [|apply sfx_refl]. apply takeN_some in E as [-> _]. exists c. reflexivity. }
    destruct (tsel_of_code (d - 1)) as [[]|]; try apply sfx_refl; try exact BL.
    + destruct l; [apply sfx_refl | apply sfx_cons, sfx_refl].
    + apply (T (fun n l1 => fail_items utf8 f (le_dec n) l1)). destruct (take 8 l) as [[a b]|]; [apply IH2 | apply sfx_refl].
  - destruct l as [|b l]; [apply sfx_refl|]. apply sfx_cons.
    destruct (negb (dscr_valid (b2n b))); [apply sfx_refl|].
    destruct (negb (has_left _ l)); [apply sfx_refl|].
    destruct (dec_elem utf8 SrcRead f (b2n b) l) as [[c l2] | | |] eqn:E; try apply IH1.
    destruct (N.leb_spec0 (b2n b) 15) as [LE | GT].
    + apply (proj1 (dec_inv utf8 SrcRead f)) in E as (_ & -> & _); [|assumption].
      apply (sfx_trans _ l2); [apply IH2 | exists (enc_cell c); reflexivity].
    + exfalso. destruct f as [|f']; [discriminate E|]. cbn [dec_elem] in E.
      destruct (b2n b =? 15) eqn:E15; [discriminate E|].
      destruct (b2n b =? 0) eqn:E0; [apply N.eqb_eq in E0; lia|].
      replace (tsel_of_code (b2n b - 1)) with (@None tsel) in E; [discriminate E|].
      clear -GT E15. destruct b; try reflexivity; exfalso; apply GT; vm_compute; congruence.
Qed.

Lemma p_cell_sfx l : psfx (p_cell utf8 l) l.
Proof.
  unfold p_cell. apply psfx_bind; [apply p_byte_sfx|]. intros b l' _.
  destruct (negb (dscr_valid (b2n b))) eqn:V; [apply sfx_refl|]. apply negb_false_iff, N.leb_le in V.
  destruct (dec_cell utf8 SrcRead (b2n b) l') as [[c l2] | | |] eqn:E; unfold psfx; cbn [rest_of]; try exact I.
  - apply dec_cell_inv in E as (_ & -> & _); [|assumption]. exists (enc_cell c). reflexivity.
  - apply fail_sfx.
Qed.

Lemma p_pkey_sfx t l : psfx (p_pkey utf8 t l) l.
Proof.
  unfold p_pkey. destruct (dec_tuniq t) as [[]| | |]; try exact I.
  - apply psfx_bind; [apply p_u64_sfx|]. intros; apply sfx_refl.
  - apply psfx_bind; [apply p_u64_sfx|]. intros; apply sfx_refl.
  - apply psfx_bind; [apply p_u64_sfx|]. intros. apply psfx_bind; [apply p_block_sfx|]. intros; apply sfx_refl.
  - apply psfx_bind; [apply p_u64_sfx|]. intros. apply psfx_bind; [apply p_block_sfx|]. intros. destruct (utf8 a0); apply sfx_refl.
Qed.

Lemma p_cells_sfx f : forall n l, psfx (p_cells utf8 f n l) l.
Proof.
  induction f as [|f IH]; intros n l; cbn [p_cells]; [apply sfx_refl|]. destruct (n =? 0); [apply sfx_refl|].
  destruct l as [|b l]; [apply sfx_refl|]. apply psfx_bind; [apply p_cell_sfx|]. intros. apply psfx_bind; [apply IH|].
  intros; apply sfx_refl.
Qed.

Lemma p_evs_sfx f : forall t cols n l, psfx (p_evs utf8 f t cols n l) l.
Proof.
  induction f as [|f IH]; intros t cols n l; cbn [p_evs]; [apply sfx_refl|]. destruct (n =? 0); [apply sfx_refl|].
  destruct l as [|k l]; [apply sfx_refl|]. 
  assert (C : forall A (x : pr A), psfx x l -> psfx x (k :: l)).
  { intros A x. unfold psfx. destruct (rest_of x); [apply sfx_cons | auto]. }
  apply C. destruct (beq k MK_END); [apply sfx_refl|]. apply psfx_bind; [apply p_u64_sfx|]. intros txn l2 _.
  destruct (b2n k) as [|[p|[p|p|]|]]; try apply sfx_refl;
    (apply psfx_bind; [apply p_pkey_sfx|]; intros key l3 _);
    repeat (apply psfx_bind; [first [apply p_cells_sfx | apply IH]|]; intros); apply sfx_refl.
Qed.

Lemma p_batch_sfx l : psfx (p_batch utf8 l) l.
Proof.
  unfold p_batch. apply psfx_bind; [apply p_byte_sfx|]. intros k l1 _.
  destruct (beq k MK_BATCH).
  - apply psfx_bind; [apply p_byte_sfx|]. intros. repeat (apply psfx_bind; [apply p_u64_sfx|]; intros).
    apply psfx_bind; [apply p_evs_sfx|]. intros. apply sfx_refl.
  - destruct (beq k MK_RECOVERY); [apply sfx_refl|]. destruct (beq k MK_CLOSED); apply sfx_refl.
Qed.

Lemma p_summary_sfx l0 e l : psfx (p_summary l0 e l) l.
Proof.
  unfold p_summary. apply psfx_bind.
  - destruct e; [apply sfx_refl|]. apply psfx_bind; [apply p_byte_sfx|]. intros. destruct (beq a MK_END); apply sfx_refl.
  - intros. apply psfx_bind; [apply p_u64_sfx|]. intros n l2 _.
    destruct (take 8 l2) as [[a2 b2]|] eqn:E; [|apply sfx_refl]. apply take_some in E as [-> _].
    destruct (_ =? _); exists a2; reflexivity.
Qed.

(** what was read is read again when more follows *)
Definition pmono {A} (p : bytes -> pr A) : Prop := forall l a l' q, p l = POk a l' -> p (l ++ q) = POk a (l' ++ q).

Lemma take_mono k l a l' q : take k l = Some (a, l') -> take k (l ++ q) = Some (a, l' ++ q).
Proof. intros E. apply take_some in E as [-> <-]. rewrite <- app_assoc. apply take_app_k. reflexivity. Qed.
Lemma takeN_mono k l a l' q : takeN k l = Some (a, l') -> takeN k (l ++ q) = Some (a, l' ++ q).
Proof. intros E. apply takeN_some in E as [-> <-]. rewrite <- app_assoc. apply takeN_app. Qed.

Lemma p_byte_mono : pmono p_byte.
Proof. intros [|x l] a l' q E; cbn in *; congruence. Qed.
Lemma p_u64_mono : pmono p_u64.
Proof.
  intros l a l' q. unfold p_u64. destruct (take 8 l) as [[x y]|] eqn:E; [|intros D; discriminate D].
  rewrite (take_mono _ _ _ _ q E). congruence.
Qed.
Lemma p_block_mono n : pmono (p_block n).
Proof.
  intros l a l' q. unfold p_block. destruct (takeN n l) as [[x y]|] eqn:E; [|intros D; discriminate D].
  rewrite (takeN_mono _ _ _ _ q E). congruence.
Qed.

Lemma pbind_ok {A B} (x : pr A) (f : A -> bytes -> pr B) b l : pbind x f = POk b l -> exists a l1, x = POk a l1 /\ f a l1 = POk b l.
Proof. destruct x as [a l1| |]; cbn [pbind]; intros E; try discriminate E. eauto. Qed.

Lemma pmono_bind {A B} (p : bytes -> pr A) (f : A -> bytes -> pr B) :
  pmono p -> (forall a, pmono (f a)) -> pmono (fun l => pbind (p l) f).
Proof.
  intros P F l b l' q E. apply pbind_ok in E as (a & l1 & E1 & E2). cbn beta. rewrite (P _ _ _ q E1). cbn [pbind]. apply F. exact E2.
Qed.
Lemma pmono_ret {A} (a : A) : pmono (POk a).
Proof. intros l x l' q E. congruence. Qed.

Lemma p_pkey_mono t : pmono (p_pkey utf8 t).
Proof.
  unfold p_pkey. destruct (dec_tuniq t) as [[]| | |]; try (intros l a l' q D; discriminate D);
    (apply pmono_bind; [apply p_u64_mono|]; intros n); try apply pmono_ret;
    (apply pmono_bind; [apply p_block_mono|]; intros b); [apply pmono_ret|].
  intros l a l' q. destruct (utf8 b); [apply pmono_ret | intros D; discriminate D].
Qed.

Lemma p_cell_ok l c l' : p_cell utf8 l = POk c l' -> cell_wf utf8 c /\ l = enc_full c ++ l'.
Proof.
  unfold p_cell. destruct l as [|b l]; [intros D; discriminate D|]. cbn [p_byte pbind].
  destruct (negb (dscr_valid (b2n b))) eqn:V; [intros D; discriminate D|]. apply negb_false_iff, N.leb_le in V.
  destruct (dec_cell utf8 SrcRead (b2n b) l) as [[c2 l2] | | |] eqn:E; intros D; try discriminate D. inversion D; subst.
  apply dec_cell_inv in E as (T & -> & W); [|assumption]. split; [exact W|]. unfold enc_full. cbn [app]. f_equal. apply b2n_inj. congruence.
Qed.
Lemma p_cell_mono : pmono (p_cell utf8).
Proof. intros l c l' q E. apply p_cell_ok in E as [W ->]. rewrite <- app_assoc. apply p_cell_enc. exact W. Qed.

Lemma p_cells_mono f : forall n l cs l' q f', p_cells utf8 f n l = POk cs l' -> (f <= f')%nat ->
  p_cells utf8 f' n (l ++ q) = POk cs (l' ++ q).
Proof.
  induction f as [|f IH]; intros n l cs l' q f' E L; [discriminate E|]. destruct f' as [|f']; [lia|].
  cbn [p_cells] in *. destruct (n =? 0); [congruence|]. destruct l as [|x l]; [discriminate E|].
  apply pbind_ok in E as (c & l1 & E1 & E2). apply pbind_ok in E2 as (cs2 & l2 & E2 & E3).
  change ((x :: l) ++ q) with (x :: l ++ q). cbn match. change (x :: l ++ q) with ((x :: l) ++ q).
  rewrite (p_cell_mono _ _ _ q E1). cbn [pbind]. rewrite (IH _ _ _ _ q f' E2) by lia. cbn [pbind]. congruence.
Qed.

Lemma p_evs_mono f : forall t cols n l r l' q f', p_evs utf8 f t cols n l = POk r l' -> (f <= f')%nat ->
  (snd r = false /\ l' = []) \/ p_evs utf8 f' t cols n (l ++ q) = POk r (l' ++ q).
Proof.
  induction f as [|f IH]; intros t cols n l r l' q f' E L; [discriminate E|]. destruct f' as [|f']; [lia|].
  cbn [p_evs] in *. destruct (n =? 0); [right; congruence|].
  destruct l as [|k l]; [left; inversion E; subst; auto|]. cbn [app].
  destruct (beq k MK_END); [right; congruence|].
  apply pbind_ok in E as (txn & l2 & E1 & E2). rewrite (p_u64_mono _ _ _ q E1). cbn [pbind].
  destruct (b2n k) as [|[p|[p|p|]|]]; try discriminate E2;
    apply pbind_ok in E2 as (key & l3 & E2 & E3); rewrite (p_pkey_mono _ _ _ _ q E2); cbn [pbind].
  2-3: apply pbind_ok in E3 as (cs & l4 & E4 & E3); rewrite (p_cells_mono _ _ _ _ _ q (S (length (l3 ++ q))) E4) by (rewrite app_length; lia); cbn [pbind].
  all: apply pbind_ok in E3 as (es & l5 & E3 & E5); inversion E5; subst; cbn [snd];
    destruct (IH _ _ _ _ _ _ q f' E3) as [[A B] | ->]; [lia | left; auto | right; reflexivity].
Qed.

Lemma p_summary_mono e l n l' q x : (length x >= length l)%nat ->
  p_summary x e l = POk n l' -> p_summary (x ++ q) e (l ++ q) = POk n (l' ++ q).
Proof.
  unfold p_summary. intros LX E. apply pbind_ok in E as (u & l1 & E1 & E2). apply pbind_ok in E2 as (m & l2 & E2 & E3).
  assert (L2 : (length l2 <= length l1 <= length l)%nat).
  { pose proof (p_u64_sfx l1) as S2. rewrite E2 in S2. destruct S2 as [z ->]. rewrite app_length.
    split; [lia|]. rewrite <- app_length.
    assert (S1 : sfx (z ++ l2) l). { destruct e; [inversion E1; subst; apply sfx_refl|].
      apply pbind_ok in E1 as (b & l3 & E4 & E5). destruct l as [|y l]; [discriminate E4|]. inversion E4; subst.
      destruct (beq b MK_END); inversion E5; subst. apply sfx_cons, sfx_refl. }
    destruct S1 as [y ->]. rewrite !app_length. lia. }
  assert (EE : (if e then POk x00 (l ++ q) else let+ (b, l1) := p_byte (l ++ q) in if beq b MK_END then POk b l1 else PErr l1) = POk u (l1 ++ q)).
  { destruct e; [congruence|]. apply pbind_ok in E1 as (b & l3 & E4 & E5). rewrite (p_byte_mono _ _ _ q E4). cbn [pbind].
    destruct (beq b MK_END); congruence. }
  rewrite EE. cbn [pbind]. rewrite (p_u64_mono _ _ _ q E2). cbn [pbind].
  destruct (take 8 l2) as [[ck l3]|] eqn:E8; [|discriminate E3]. rewrite (take_mono _ _ _ _ q E8).
  rewrite !app_length. replace (length x + length q - (length l2 + length q))%nat with (length x - length l2)%nat by lia.
  rewrite firstn_app. replace (length x - length l2 - length x)%nat with 0%nat by lia. rewrite firstn_O, app_nil_r.
  destruct (_ =? _); congruence.
Qed.

(** no undefined behaviour with a valid key type *)
Definition nub {A} (x : pr A) : Prop := x <> PUb.
Lemma nub_bind {A B} (x : pr A) (f : A -> bytes -> pr B) : nub x -> (forall a l, nub (f a l)) -> nub (pbind x f).
Proof. intros X F. destruct x; cbn [pbind]; [apply F | intros D; discriminate D | exfalso; apply X; reflexivity]. Qed.
Lemma nub_ok {A} (a : A) l : nub (POk a l). Proof. intros D; discriminate D. Qed.
Lemma nub_err {A} l : @nub A (PErr l). Proof. intros D; discriminate D. Qed.
Lemma p_byte_nub l : nub (p_byte l). Proof. destruct l; [apply nub_err | apply nub_ok]. Qed.
Lemma p_u64_nub l : nub (p_u64 l). Proof. unfold p_u64. destruct (take 8 l) as [[a b]|]; [apply nub_ok | apply nub_err]. Qed.
Lemma p_block_nub n l : nub (p_block n l). Proof. unfold p_block. destruct (takeN n l) as [[a b]|]; [apply nub_ok | apply nub_err]. Qed.
Lemma p_pkey_nub t l : t <> TuIllegal -> nub (p_pkey utf8 (tuniq_code t) l).
Proof.
  intros T. unfold p_pkey. rewrite dec_tuniq_code by assumption. destruct t; try congruence;
    repeat (apply nub_bind; [first [apply p_u64_nub | apply p_block_nub]|]; intros); try apply nub_ok.
  destruct (utf8 a0); [apply nub_ok | apply nub_err].
Qed.
Lemma p_cell_nub l : nub (p_cell utf8 l).
Proof.
  unfold p_cell. apply nub_bind; [apply p_byte_nub|]. intros b l1. destruct (negb _); [apply nub_err|].
  destruct (dec_cell utf8 SrcRead (b2n b) l1) as [[c2 l2] | | |] eqn:E; [apply nub_ok | apply nub_err | |];
   exfalso.
  - exact (proj1 (dec_reader_noub utf8 _) _ _ E).
  - exact (dec_cell_nofuel _ _ _ _ E).
Qed.
Lemma p_cells_nub f : forall n l, nub (p_cells utf8 f n l).
Proof.
  induction f as [|f IH]; intros n l; cbn [p_cells]; [apply nub_err|]. destruct (n =? 0); [apply nub_ok|].
  destruct l; [apply nub_err|]. apply nub_bind; [apply p_cell_nub|]. intros. apply nub_bind; [apply IH|]. intros. apply nub_ok.
Qed.
Lemma p_evs_nub f t : t <> TuIllegal -> forall cols n l, nub (p_evs utf8 f (tuniq_code t) cols n l).
Proof.
  intros T. induction f as [|f IH]; intros cols n l; cbn [p_evs]; [apply nub_err|]. destruct (n =? 0); [apply nub_ok|].
  destruct l as [|k l]; [apply nub_ok|]. destruct (beq k MK_END); [apply nub_ok|]. apply nub_bind; [apply p_u64_nub|]. intros txn l2.
  destruct (b2n k) as [|[p|[p|p|]|]]; try apply nub_err;
    (apply nub_bind; [apply p_pkey_nub; assumption|]; intros key l3);
    repeat (apply nub_bind; [first [apply p_cells_nub | apply IH]|]; intros); apply nub_ok.
Qed.
Lemma p_summary_nub x e l : nub (p_summary x e l).
Proof.
  unfold p_summary. apply nub_bind.
  - destruct e; [apply nub_ok|]. apply nub_bind; [apply p_byte_nub|]. intros. destruct (beq a MK_END); [apply nub_ok | apply nub_err].
  - intros. apply nub_bind; [apply p_u64_nub|]. intros. destruct (take 8 l1) as [[u v]|]; [|apply nub_err].
    destruct (_ =? _); [apply nub_ok | apply nub_err].
Qed.

(** the beginning of a batch without the recovery mark is refused *)
Lemma no_ff_sfx a b : sfx a b -> ~ In MK_RECOVERY b -> ~ In MK_RECOVERY a.
Proof. intros [x ->] N I. apply N, in_or_app. auto. Qed.

Lemma p_file_cut_batch {St} (apply : St -> N -> list bev -> option St) b x q s f :
  batch_wf utf8 b -> v1_batch_bytes b = x ++ q -> q <> [] -> ~ In MK_RECOVERY x ->
  p_file utf8 apply (S f) s x = VrErr.
Proof.
  intros W EB Q NF. destruct x as [|x0 x]; [reflexivity|].
  destruct (p_batch_enc b [] W) as (early & l1 & B1 & B2). rewrite app_nil_r, EB in B1, B2.
  destruct W as (_ & _ & W3 & _).
  assert (REC : forall l, sfx l (x0 :: x) ->
    match l with [] => VrErr | z :: l2 => if beq z MK_RECOVERY then p_file utf8 apply f s l2 else VrErr end = VrErr).
  { intros [|z l] SX; [reflexivity|]. destruct (beq z MK_RECOVERY) eqn:Z; [|reflexivity]. apply beq_eq in Z. subst z.
    exfalso. apply (no_ff_sfx _ _ SX NF). left. reflexivity. }
  assert (X0 : x0 = MK_BATCH). { destruct (batch_bytes_cons b []) as [l E]. rewrite app_nil_r, EB in E. cbn [app] in E. congruence. }
  subst x0. cbn [p_file].
  assert (XT : match x with [] => True | t :: _ => t = tuniq_code (ba_tag b) end).
  { destruct x as [|t x]; [exact I|]. unfold v1_batch_bytes, v1_batch_body in EB. cbn [app] in EB. congruence. }
  destruct (p_batch utf8 (MK_BATCH :: x)) as [v l2 | l2 |] eqn:E.
  - assert (SX : sfx l2 (MK_BATCH :: x)). { pose proof (p_batch_sfx (MK_BATCH :: x)) as H. rewrite E in H. exact H. }
    unfold p_batch in E, B1. cbn [p_byte pbind app] in E, B1. change (beq MK_BATCH MK_BATCH) with true in E, B1. cbn match in E, B1.
    apply pbind_ok in E as (tag & y2 & E2 & E). apply pbind_ok in E as (want & y3 & E3 & E).
    apply pbind_ok in E as (sv & y4 & E4 & E). apply pbind_ok in E as (cols & y5 & E5 & E).
    apply pbind_ok in E as (es & y6 & E6 & E). inversion E; subst v y6. clear E.
    destruct (p_evs_mono _ _ _ _ _ _ _ q (S (length (y5 ++ q))) E6) as [[F1 F2] | M]; [rewrite app_length; lia | |].
    + subst l2. rewrite F1. cbn [p_summary p_byte pbind]. reflexivity.
    + rewrite (p_byte_mono _ _ _ q E2) in B1. cbn [pbind] in B1. rewrite (p_u64_mono _ _ _ q E3) in B1. cbn [pbind] in B1.
      rewrite (p_u64_mono _ _ _ q E4) in B1. cbn [pbind] in B1. rewrite (p_u64_mono _ _ _ q E5) in B1. cbn [pbind] in B1.
      rewrite M in B1. cbn [pbind] in B1. inversion B1; subst. 
      destruct (p_summary (MK_BATCH :: x) (snd es) l2) as [n l3 | l3 |] eqn:ES.
      * exfalso. apply (p_summary_mono _ _ _ _ q) in ES; [|destruct SX as [z Z]; rewrite Z, app_length; lia].
        cbn [app] in ES, B2. rewrite ES in B2. assert (HQ : l3 ++ q = []) by congruence. apply app_eq_nil in HQ as [_ HQ]. contradiction.
      * apply REC. apply (sfx_trans _ l2); [|exact SX]. pose proof (p_summary_sfx (MK_BATCH :: x) (snd es) l2) as H.
        rewrite ES in H. exact H.
      * exfalso. exact (p_summary_nub _ _ _ ES).
  - apply REC. pose proof (p_batch_sfx (MK_BATCH :: x)) as H. rewrite E in H. exact H.
  - exfalso. revert E. unfold p_batch. cbn [p_byte pbind]. change (beq MK_BATCH MK_BATCH) with true. cbn match.
    destruct x as [|t x]; [apply nub_err|]. subst t. cbn [p_byte pbind].
    repeat (apply nub_bind; [apply p_u64_nub|]; intros). apply nub_bind; [apply p_evs_nub; assumption|]. intros. apply nub_ok.
Qed.

(** a file cut short *)
Definition fop_free (o : fop) : Prop := match o with FBatch b => ~ In MK_RECOVERY (v1_batch_bytes b) | _ => True end.

Lemma app_cut_file (a : bytes) : forall b x q, a ++ b = x ++ q ->
  (exists y, a = x ++ y /\ y <> [] /\ q = y ++ b) \/ exists y, x = a ++ y /\ b = y ++ q.
Proof.
  induction a as [|c a IH]; intros b x q E.
  - right. exists x. auto.
  - destruct x as [|d x]; [left; exists (c :: a); repeat split; [congruence | exact (eq_sym E)]|].
    cbn [app] in E. inversion E as [[E1 E2]]; subst. destruct (IH _ _ _ E2) as [(y & -> & N & ->) | (y & -> & ->)].
    + left. exists y. auto.
    + right. exists y. auto.
Qed.

Lemma p_file_cut {St} (apply : St -> N -> list bev -> option St) l : forall s s' x q f,
  Forall fop_wf l -> Forall fop_free l -> closed_data l = x ++ q -> q <> [] ->
  p_file utf8 apply f s x = VrOk s' ->
  exists l1 l2, l = l1 ++ FRestart :: l2 /\ x = closed_data l1.
Proof.
  unfold closed_data. induction l as [|o l IH]; intros s s' x q f W NF E Q R.
  - exfalso. cbn [map concat app] in E. destruct x as [|y x].
    + destruct f; discriminate R.
    + cbn [app] in E. inversion E as [[E1 E2]]. symmetry in E2. apply app_eq_nil in E2 as [_ E2]. contradiction.
  - inversion W as [|? ? W1 W2]; subst. inversion NF as [|? ? N1 N2]; subst.
    cbn [map concat] in E. rewrite <- app_assoc in E.
    destruct (app_cut_file _ _ _ _ E) as [(y & E1 & Y & E2) | (y & -> & E2)].
    + destruct f as [|f]; [discriminate R|]. destruct o as [b | |].
      * cbn [fop_bytes] in E1. rewrite (p_file_cut_batch apply b x y s f) in R; [discriminate R | assumption..|].
        cbn [fop_free] in N1. rewrite E1 in N1. intros I. apply N1, in_or_app. auto.
      * exfalso. destruct x as [|z x]; [discriminate R|]. cbn [fop_bytes app] in E1. inversion E1 as [[A B]].
        symmetry in B. apply app_eq_nil in B as [_ B]. contradiction.
      * destruct x as [|z x]; [discriminate R|]. cbn [fop_bytes app] in E1. inversion E1 as [[A B]].
        destruct x as [|z2 x]; [exists [], l; split; reflexivity|]. cbn [app] in B. inversion B as [[C D]].
        symmetry in D. apply app_eq_nil in D as [_ D]. contradiction.
    + destruct f as [|f]; [discriminate R|].
      destruct y as [|y0 y].
      * destruct o as [b | |].
        -- exfalso. rewrite app_nil_r in R. revert R. clear -W1. rename W1 into W. intros R. cbn [fop_bytes] in R.
           destruct (p_batch_enc b [] W) as (early & l1 & B1 & B2). rewrite app_nil_r in B1, B2.
           destruct (batch_bytes_cons b []) as [l EL]. rewrite app_nil_r in EL. cbn [p_file] in R. rewrite B1, B2 in R.
           rewrite EL in R. change (N.of_nat (length (ba_evs b))) with (ev_count b) in R. rewrite N.eqb_refl in R. cbn [negb] in R.
           destruct (apply s (ba_schema b) (ba_evs b)); [|discriminate R]. destruct f; discriminate R.
        -- exfalso. cbn in R. destruct f; discriminate R.
        -- exfalso. cbn in R. destruct f; discriminate R.
      * rewrite p_file_fop in R by (assumption || congruence).
        destruct (fold_batches St apply s (batches [o])) as [s1|]; [|discriminate R].
        destruct (IH s1 s' (y0 :: y) q f W2 N2 E2 Q R) as (l1 & l2 & -> & X).
        exists (o :: l1), l2. split; [reflexivity|]. rewrite X. cbn [map concat]. rewrite <- app_assoc. reflexivity.
Qed.

(** ** reading ends *)
Lemma p_batch_pos l v l1 : p_batch utf8 l = POk v l1 -> (length l1 < length l)%nat.
Proof.
  unfold p_batch. intros E. destruct l as [|k l]; [discriminate E|]. cbn [p_byte pbind] in E. cbn [length].
  enough (L : (length l1 <= length l)%nat) by lia.
  assert (X : psfx (p_batch utf8 (k :: l)) (k :: l)) by apply p_batch_sfx.
  destruct (beq k MK_BATCH).
  - match type of E with ?y = _ => assert (P : psfx y l) end.
    { apply psfx_bind; [apply p_byte_sfx|]. intros. repeat (apply psfx_bind; [apply p_u64_sfx|]; intros).
      apply psfx_bind; [apply p_evs_sfx|]. intros. apply sfx_refl. }
    rewrite E in P. destruct P as [z ->]. rewrite app_length. lia.
  - destruct (beq k MK_RECOVERY); [inversion E; subst; lia|]. destruct (beq k MK_CLOSED); inversion E; subst; lia.
Qed.

Lemma psfx_len {A} (x : pr A) l l' : psfx x l -> rest_of x = Some l' -> (length l' <= length l)%nat.
Proof. unfold psfx. intros P E. rewrite E in P. destruct P as [z ->]. rewrite app_length. lia. Qed.

Lemma p_file_ends {St} (apply : St -> N -> list bev -> option St) f : forall s l, (length l < f)%nat ->
  p_file utf8 apply f s l <> VrFuel.
Proof.
  induction f as [|f IH]; intros s l L; [lia|]. cbn [p_file].
  assert (REC : forall l1, (length l1 <= length l)%nat ->
    match l1 with [] => VrErr | z :: l2 => if beq z MK_RECOVERY then p_file utf8 apply f s l2 else VrErr end <> VrFuel).
  { intros [|z l1] L1; [intros D; discriminate D|]. cbn [length] in L1. destruct (beq z MK_RECOVERY); [apply IH; lia | intros D; discriminate D]. }
  destruct l as [|b l]; [intros D; discriminate D|].
  pose proof (p_batch_sfx (b :: l)) as SX.
  destruct (p_batch utf8 (b :: l)) as [[| | early sv es] l1 | l1 |] eqn:E; try (intros D; discriminate D).
  - apply p_batch_pos in E. apply IH. lia.
  - apply p_batch_pos in E. destruct l1 as [|z l2]; [intros D; discriminate D|]. cbn [length] in *.
    destruct (beq z MK_REOPEN); [apply IH; lia | intros D; discriminate D].
  - apply p_batch_pos in E. pose proof (p_summary_sfx (b :: l) early l1) as S2.
    destruct (p_summary (b :: l) early l1) as [n l2 | l2 |]; try (intros D; discriminate D).
    + apply (psfx_len _ _ l2) in S2; [|reflexivity]. destruct (negb _); [apply REC; lia|].
      destruct (apply s sv es); [apply IH; lia | intros D; discriminate D].
    + apply (psfx_len _ _ l2) in S2; [|reflexivity]. apply REC. lia.
  - apply REC. apply (psfx_len _ _ l1) in SX; [lia | reflexivity].
Qed.

(** the fuel of the inner loops is enough: more of it changes nothing *)
Lemma p_cells_fuel f : forall n l f', (length l < f)%nat -> (length l < f')%nat -> p_cells utf8 f n l = p_cells utf8 f' n l.
Proof.
  induction f as [|f IH]; intros n l f' L L'; [lia|]. destruct f' as [|f']; [lia|]. cbn [p_cells].
  destruct (n =? 0); [reflexivity|]. destruct l as [|b l]; [reflexivity|].
  destruct (p_cell utf8 (b :: l)) as [c l1 | |] eqn:E; try reflexivity. cbn [pbind].
  apply p_cell_ok in E as [_ E]. assert (length (b :: l) = length (enc_full c ++ l1)) as LL by congruence.
  rewrite app_length in LL. pose proof (enc_full_length c). rewrite (IH (n - 1) l1 f') by lia. reflexivity.
Qed.

Lemma p_evs_fuel f : forall t cols n l f', (length l < f)%nat -> (length l < f')%nat ->
  p_evs utf8 f t cols n l = p_evs utf8 f' t cols n l.
Proof.
  induction f as [|f IH]; intros t cols n l f' L L'; [lia|]. destruct f' as [|f']; [lia|]. cbn [p_evs].
  destruct (n =? 0); [reflexivity|]. destruct l as [|k l]; [reflexivity|]. destruct (beq k MK_END); [reflexivity|].
  cbn [length] in L, L'. pose proof (p_u64_sfx l) as S1. destruct (p_u64 l) as [txn l2 | |]; try reflexivity. cbn [pbind].
  apply (psfx_len _ _ l2) in S1; [|reflexivity].
  destruct (b2n k) as [|[p|[p|p|]|]]; try reflexivity;
    pose proof (p_pkey_sfx t l2) as S2; destruct (p_pkey utf8 t l2) as [key l3 | |]; try reflexivity; cbn [pbind];
    (apply (psfx_len _ _ l3) in S2; [|reflexivity]).
  - rewrite (IH t cols (n - 1) l3 f') by lia. reflexivity.
  - pose proof (p_cells_sfx (S (length l3)) cols l3) as S3. destruct (p_cells utf8 _ cols l3) as [cs l4 | |]; try reflexivity.
    cbn [pbind]. apply (psfx_len _ _ l4) in S3; [|reflexivity]. rewrite (IH t cols (n - 1) l4 f') by lia. reflexivity.
  - pose proof (p_cells_sfx (S (length l3)) cols l3) as S3. destruct (p_cells utf8 _ cols l3) as [cs l4 | |]; try reflexivity.
    cbn [pbind]. apply (psfx_len _ _ l4) in S3; [|reflexivity]. rewrite (IH t cols (n - 1) l4 f') by lia. reflexivity.
Qed.
End File.
