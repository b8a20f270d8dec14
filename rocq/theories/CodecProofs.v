(** Proofs about the storage encoding. *)
From Coq Require Import List Arith NArith Lia Bool.
From Verif Require Import Bytes DataModel CodecModel.
Import ListNotations.
Local Open Scope N_scope.

(** * Small reader lemmas *)

Lemma rd_u64_app src n r : n < two64 -> rd_u64 src (u64_le n ++ r) = ROk (n, r).
Proof.
  intros H. unfold rd_u64. rewrite take_app_k by apply u64_len. rewrite u64_dec by auto. reflexivity.
Qed.

Lemma rd_block_app src b r : rd_block src (len b) (b ++ r) = ROk (b, r).
Proof. unfold rd_block. rewrite takeN_app. reflexivity. Qed.

Lemma has_left_le n l : n <= len l -> has_left n l = true.
Proof. intros. unfold has_left. apply N.leb_le. auto. Qed.

Lemma len_u64 n : len (u64_le n) = 8.
Proof. unfold len. rewrite u64_len. reflexivity. Qed.
Lemma len_u128 n : len (u128_le n) = 16.
Proof. unfold len. rewrite u128_len. reflexivity. Qed.

Lemma enc_tag_null : b2n (enc_tag CNull) = 0.
Proof. reflexivity. Qed.

Lemma enc_tag_init c : cell_init c = true -> b2n (enc_tag c) = tsel_code (cell_sel c) + 1.
Proof.
  intros H. unfold enc_tag. rewrite b2n_n2b, H, N.mul_1_r. apply N.mod_small.
  pose proof (tsel_code_max (cell_sel c)). lia.
Qed.

Lemma enc_tag_valid c : dscr_valid (b2n (enc_tag c)) = true.
Proof.
  unfold dscr_valid. apply N.leb_le. destruct (cell_init c) eqn:E.
  - rewrite enc_tag_init by auto. pose proof (tsel_code_max (cell_sel c)). lia.
  - destruct c; try discriminate E. rewrite enc_tag_null. lia.
Qed.

Lemma enc_tag_not_dict c : b2n (enc_tag c) <> 15.
Proof.
  destruct (cell_init c) eqn:E.
  - rewrite enc_tag_init by auto. pose proof (tsel_code_max (cell_sel c)). lia.
  - destruct c; try discriminate E. rewrite enc_tag_null. lia.
Qed.

Lemma expect_atleast_le8 d : expect_atleast d <= 8.
Proof. destruct d as [|[p|p|]]; cbn; lia. Qed.

Lemma expect_atleast_ok c r : expect_atleast (b2n (enc_tag c)) <= len (enc_cell c ++ r).
Proof.
  destruct c; try (etransitivity; [apply expect_atleast_le8|];
    cbn [enc_cell]; rewrite !len_app, len_u64; lia).
  - rewrite enc_tag_null. apply N.le_0_l.
  - replace (b2n (enc_tag (CBool b))) with 1 by reflexivity. cbn [enc_cell app].
    rewrite len_cons. change (expect_atleast 1) with 1. lia.
Qed.

(** unfolding equations of the mutual fixpoints *)
Lemma dec_elem_S utf8 src f dscr l : dec_elem utf8 src (S f) dscr l =
    if dscr =? 15 then RErr else
    if dscr =? 0 then ROk (CNull, l) else
    match tsel_of_code (dscr - 1) with
    | None => RErr
    | Some TsBool =>
        let* (b, l1) := rd_byte src l in
        if 1 <? b2n b then RErr else ROk (CBool (b2n b =? 1), l1)
    | Some TsBin =>
        let* (n, l1) := rd_u64 src l in
        let* (b, l2) := rd_block src n l1 in
        ROk (CBin b, l2)
    | Some TsStr =>
        let* (n, l1) := rd_u64 src l in
        let* (b, l2) := rd_block src n l1 in
        if utf8 b then ROk (CStr b, l2) else RErr
    | Some TsList =>
        let* (n, l1) := rd_u64 src l in
        let* (items, l2) := dec_items utf8 src f n l1 in
        ROk (CList items, l2)
    | Some s =>
        match tsel_qsel s with
        | None => RErr
        | Some q =>
            let* (w, l1) := rd_u64 src l in
            ROk (CQw q w, l1)
        end
    end.
Proof. reflexivity. Qed.

Lemma dec_items_S utf8 src f n l : dec_items utf8 src (S f) n l =
    if n =? 0 then ROk ([], l) else
    match l with
    | [] => RErr
    | b :: l1 =>
        if negb (dscr_valid (b2n b)) then RErr else
        if negb (has_left (expect_atleast (b2n b)) l1) then RErr else
        let* (c, l2) := dec_elem utf8 src f (b2n b) l1 in
        let* (cs, l3) := dec_items utf8 src f (n - 1) l2 in
        ROk (c :: cs, l3)
    end.
Proof. reflexivity. Qed.

Section Cells.
Variable utf8 : bytes -> bool.
Variable src : source.

Definition enc_items (l : list cell) : bytes := concat (map (fun x => enc_tag x :: enc_cell x) l).

Lemma enc_items_cons x l : enc_items (x :: l) = enc_tag x :: enc_cell x ++ enc_items l.
Proof. reflexivity. Qed.

Lemma dec_elem_roundtrip c : cell_wf utf8 c -> forall f r,
  (length (enc_cell c) < f)%nat ->
  dec_elem utf8 src f (b2n (enc_tag c)) (enc_cell c ++ r) = ROk (c, r).
Proof.
  induction c as [|b|q w|b|b|l IH] using cell_ind'; intros WF f r HF;
    destruct f as [|f]; try lia.
  - reflexivity.
  - destruct b; reflexivity.
  - inversion WF; subst. rewrite enc_tag_init by reflexivity.
    cbn [enc_cell cell_sel].
    destruct q; cbn [qsel_tsel]; cbn -[rd_u64 u64_le];
      rewrite rd_u64_app by auto; reflexivity.
  - inversion WF; subst. cbn -[rd_u64 u64_le rd_block].
    rewrite <- app_assoc, rd_u64_app by auto. cbn [rbind]. rewrite rd_block_app. reflexivity.
  - inversion WF; subst. cbn -[rd_u64 u64_le rd_block].
    rewrite <- app_assoc, rd_u64_app by auto. cbn [rbind]. rewrite rd_block_app. cbn [rbind].
    rewrite H1. reflexivity.
  - inversion WF as [| | | | |l' HL HW]; subst. cbn [enc_cell] in HF.
    fold (enc_items l) in HF. rewrite app_length, u64_len in HF.
    cbn -[rd_u64 u64_le rd_block].
    rewrite <- app_assoc, rd_u64_app by auto. cbn [rbind].
    fold (enc_items l).
    assert (HI : forall f r, (length (enc_items l) < f)%nat ->
              dec_items utf8 src f (N.of_nat (length l)) (enc_items l ++ r) = ROk (l, r)).
    { clear HF HL WF f r. induction l as [|x l IHl]; intros f r HF.
      - destruct f; [lia|]. reflexivity.
      - inversion IH; subst. inversion HW; subst.
        rewrite enc_items_cons in *. cbn [length] in HF. rewrite app_length in HF.
        destruct f as [|f]; [lia|].
        cbn [dec_items app].
        destruct (N.of_nat (length (x :: l)) =? 0) eqn:E.
        { apply N.eqb_eq in E. cbn [length] in E. lia. }
        rewrite enc_tag_valid. cbn [negb].
        rewrite <- app_assoc. rewrite has_left_le by apply expect_atleast_ok. cbn [negb].
        rewrite H1 by (auto; lia). cbn [rbind].
        replace (N.of_nat (length (x :: l)) - 1) with (N.of_nat (length l)) by (cbn [length]; lia).
        rewrite IHl by (auto; lia). reflexivity. }
    rewrite HI by lia. reflexivity.
Qed.

Lemma dec_cell_roundtrip c r : cell_wf utf8 c ->
  dec_cell utf8 src (b2n (enc_tag c)) (enc_cell c ++ r) = ROk (c, r).
Proof.
  intros. apply dec_elem_roundtrip; auto. rewrite app_length. lia.
Qed.

(** ** The recursion bound is never hit, and decoding consumes a prefix *)

Lemma rd_u64_ok l n l' : rd_u64 src l = ROk (n, l') ->
  l = u64_le n ++ l' /\ n < two64.
Proof.
  unfold rd_u64. destruct (take 8 l) as [[a b]|] eqn:E; [|destruct src; discriminate].
  intros H; inversion H; subst. apply take_some in E as [-> E].
  rewrite u64_enc_dec by auto. split; auto. apply u64_dec_bound; auto.
Qed.

Lemma rd_block_ok n l b l' : rd_block src n l = ROk (b, l') -> l = b ++ l' /\ len b = n.
Proof.
  unfold rd_block. destruct (takeN n l) as [[a c]|] eqn:E; [|destruct src; discriminate].
  intros H; inversion H; subst. apply takeN_some in E. auto.
Qed.

Lemma rd_byte_ok l b l' : rd_byte src l = ROk (b, l') -> l = b :: l'.
Proof.
  unfold rd_byte. destruct l; [destruct src; discriminate|]. intros H; inversion H; auto.
Qed.

Lemma oob_not_fuel {A} : @oob A src <> RFuel.
Proof. destruct src; discriminate. Qed.

Lemma rd_u64_nofuel l : rd_u64 src l <> RFuel.
Proof. unfold rd_u64. destruct (take 8 l) as [[]|]; [discriminate|apply oob_not_fuel]. Qed.
Lemma rd_block_nofuel n l : rd_block src n l <> RFuel.
Proof. unfold rd_block. destruct (takeN n l) as [[]|]; [discriminate|apply oob_not_fuel]. Qed.
Lemma rd_byte_nofuel l : rd_byte src l <> RFuel.
Proof. unfold rd_byte. destruct l; [apply oob_not_fuel|discriminate]. Qed.

(** inversion: what was decoded is exactly what the encoder would write *)
Lemma dec_inv f :
  (forall d l c l', (d <= 15) -> dec_elem utf8 src f d l = ROk (c, l') ->
      d = b2n (enc_tag c) /\ l = enc_cell c ++ l' /\ cell_wf utf8 c) /\
  (forall n l cs l', n < two64 -> dec_items utf8 src f n l = ROk (cs, l') ->
      n = N.of_nat (length cs) /\ l = enc_items cs ++ l' /\ Forall (cell_wf utf8) cs).
Proof.
  induction f as [|f [IHe IHi]]; split; intros; try discriminate.
  - rewrite dec_elem_S in H0.
    destruct (d =? 15) eqn:E15; [discriminate|].
    destruct (d =? 0) eqn:E0.
    { inversion H0; subst. apply N.eqb_eq in E0. subst. split; [reflexivity|].
      split; [reflexivity|constructor]. }
    apply N.eqb_neq in E15, E0.
    destruct (tsel_of_code (d - 1)) as [s|] eqn:ES; [|discriminate].
    apply tsel_of_code_some in ES.
    assert (HD : d = tsel_code s + 1) by lia.
    assert (HQ : forall q, tsel_qsel s = Some q ->
       (let* (w, l1) := rd_u64 src l in ROk (CQw q w, l1)) = ROk (c, l') ->
       d = b2n (enc_tag c) /\ l = enc_cell c ++ l' /\ cell_wf utf8 c).
    { intros q HQ HR. destruct (rd_u64 src l) as [[w l1]| | |] eqn:ER; try discriminate.
      cbn in HR. inversion HR; subst. apply rd_u64_ok in ER as [-> HB].
      apply tsel_qsel_some in HQ. subst s.
      rewrite enc_tag_init by reflexivity. cbn [cell_sel enc_cell]. repeat split; auto.
      constructor; auto. }
    destruct s; try (apply (HQ _ eq_refl); exact H0).
    + destruct (rd_byte src l) as [[b l1]| | |] eqn:ER; try discriminate. cbn [rbind] in H0.
      apply rd_byte_ok in ER. subst l.
      destruct (1 <? b2n b) eqn:EB; [discriminate|].
      apply N.ltb_ge in EB. inversion H0; subst. clear H0.
      assert (b2n b = 0 \/ b2n b = 1) as [Hb|Hb] by lia; rewrite Hb; cbn.
      * apply (b2n_inj b x00) in Hb. subst. repeat split; constructor.
      * apply (b2n_inj b x01) in Hb. subst. repeat split; constructor.
    + destruct (rd_u64 src l) as [[n l1]| | |] eqn:ER; try discriminate. cbn [rbind] in H0.
      apply rd_u64_ok in ER as [-> HB].
      destruct (rd_block src n l1) as [[b l2]| | |] eqn:EB; try discriminate. cbn [rbind] in H0.
      apply rd_block_ok in EB as [-> EB]. inversion H0; subst.
      split; [reflexivity|]. cbn [enc_cell]. rewrite <- app_assoc. split; auto. constructor; auto.
    + destruct (rd_u64 src l) as [[n l1]| | |] eqn:ER; try discriminate. cbn [rbind] in H0.
      apply rd_u64_ok in ER as [-> HB].
      destruct (rd_block src n l1) as [[b l2]| | |] eqn:EB; try discriminate. cbn [rbind] in H0.
      apply rd_block_ok in EB as [-> EB].
      destruct (utf8 b) eqn:EU; [|discriminate]. inversion H0; subst.
      split; [reflexivity|]. cbn [enc_cell]. rewrite <- app_assoc. split; auto. constructor; auto.
    + destruct (rd_u64 src l) as [[n l1]| | |] eqn:ER; try discriminate. cbn [rbind] in H0.
      apply rd_u64_ok in ER as [-> HB].
      destruct (dec_items utf8 src f n l1) as [[cs l2]| | |] eqn:EI; try discriminate.
      cbn [rbind] in H0. inversion H0; subst.
      apply IHi in EI as (-> & -> & HW); auto.
      split; [reflexivity|]. cbn [enc_cell]. fold (enc_items cs). rewrite <- app_assoc.
      split; auto. constructor; auto.
  - rewrite dec_items_S in H0.
    destruct (n =? 0) eqn:E0.
    { apply N.eqb_eq in E0. inversion H0; subst. repeat split; auto. }
    apply N.eqb_neq in E0.
    destruct l as [|b l1]; [discriminate|].
    destruct (negb (dscr_valid (b2n b))) eqn:EV; [discriminate|].
    apply negb_false_iff, N.leb_le in EV.
    destruct (negb (has_left _ _)); [discriminate|].
    destruct (dec_elem utf8 src f (b2n b) l1) as [[c l2]| | |] eqn:EE; try discriminate.
    cbn [rbind] in H0.
    destruct (dec_items utf8 src f (n - 1) l2) as [[cs' l3]| | |] eqn:EI; try discriminate.
    cbn [rbind] in H0. inversion H0; subst.
    apply IHe in EE as (HT & -> & HW); auto.
    apply IHi in EI as (HN & -> & HWs); [|lia].
    apply b2n_inj in HT. subst b.
    rewrite enc_items_cons. cbn [length app]. rewrite <- app_assoc.
    repeat split; auto. lia.
Qed.

Lemma dec_nofuel f :
  (forall d l, (length l < f)%nat -> dec_elem utf8 src f d l <> RFuel) /\
  (forall n l, n < two64 -> (length l < f)%nat -> dec_items utf8 src f n l <> RFuel).
Proof.
  induction f as [|f [IHe IHi]]; split; intros; try lia.
  - rewrite dec_elem_S.
    destruct (d =? 15); [discriminate|]. destruct (d =? 0); [discriminate|].
    assert (HQ : forall q, (let* (w, l1) := rd_u64 src l in ROk (CQw q w, l1)) <> RFuel).
    { intros q. pose proof (rd_u64_nofuel l).
      destruct (rd_u64 src l) as [[w l1]| | |]; cbn; congruence. }
    destruct (tsel_of_code (d - 1)) as [s|]; [|discriminate].
    destruct s; cbn [tsel_qsel]; try apply HQ.
    + pose proof (rd_byte_nofuel l). destruct (rd_byte src l) as [[b l1]| | |]; cbn; try congruence.
      destruct (1 <? b2n b); discriminate.
    + pose proof (rd_u64_nofuel l). destruct (rd_u64 src l) as [[n l1]| | |]; cbn; try congruence.
      pose proof (rd_block_nofuel n l1). destruct (rd_block src n l1) as [[b l2]| | |]; cbn; congruence.
    + pose proof (rd_u64_nofuel l). destruct (rd_u64 src l) as [[n l1]| | |]; cbn; try congruence.
      pose proof (rd_block_nofuel n l1). destruct (rd_block src n l1) as [[b l2]| | |]; cbn; try congruence.
      destruct (utf8 b); discriminate.
    + pose proof (rd_u64_nofuel l). destruct (rd_u64 src l) as [[n l1]| | |] eqn:E; cbn; try congruence.
      apply rd_u64_ok in E as [-> HB]. rewrite app_length, u64_len in H.
      pose proof (IHi n l1 HB ltac:(lia)).
      destruct (dec_items utf8 src f n l1) as [[b l2]| | |]; cbn; congruence.
  - rewrite dec_items_S. destruct (n =? 0) eqn:E0; [discriminate|].
    destruct l as [|b l1]; [discriminate|].
    destruct (negb (dscr_valid (b2n b))) eqn:EV; [discriminate|].
    destruct (negb (has_left _ _)); [discriminate|]. cbn [length] in H0.
    pose proof (IHe (b2n b) l1 ltac:(lia)).
    destruct (dec_elem utf8 src f (b2n b) l1) as [[c l2]| | |] eqn:EE; cbn; try congruence.
    apply (proj1 (dec_inv f)) in EE as (_ & -> & _).
    2:{ apply negb_false_iff, N.leb_le in EV. auto. }
    rewrite app_length in H0.
    pose proof (IHi (n - 1) l2 ltac:(lia) ltac:(lia)).
    destruct (dec_items utf8 src f (n - 1) l2) as [[cs l3]| | |]; cbn; congruence.
Qed.

End Cells.

Lemma dec_cell_inv utf8 src d l c l' : d <= 15 -> dec_cell utf8 src d l = ROk (c, l') ->
  d = b2n (enc_tag c) /\ l = enc_cell c ++ l' /\ cell_wf utf8 c.
Proof. intros. eapply (proj1 (dec_inv utf8 src _)); eauto. Qed.

Lemma dec_cell_nofuel utf8 src d l : dec_cell utf8 src d l <> RFuel.
Proof. apply (proj1 (dec_nofuel utf8 src _)). lia. Qed.

(** checked source: no out-of-bounds read *)
Lemma dec_reader_noub utf8 f :
  (forall d l, dec_elem utf8 SrcRead f d l <> RUb) /\
  (forall n l, dec_items utf8 SrcRead f n l <> RUb).
Proof.
  induction f as [|f [IHe IHi]]; split; intros; try discriminate.
  - rewrite dec_elem_S.
    destruct (d =? 15); [discriminate|]. destruct (d =? 0); [discriminate|].
    assert (HU : forall l, rd_u64 SrcRead l <> RUb).
    { intros x. unfold rd_u64. destruct (take 8 x) as [[]|]; discriminate. }
    assert (HB : forall n l, rd_block SrcRead n l <> RUb).
    { intros n x. unfold rd_block. destruct (takeN n x) as [[]|]; discriminate. }
    assert (HQ : forall q, (let* (w, l1) := rd_u64 SrcRead l in ROk (CQw q w, l1)) <> RUb).
    { intros q. pose proof (HU l). destruct (rd_u64 SrcRead l) as [[w l1]| | |]; cbn; congruence. }
    destruct (tsel_of_code (d - 1)) as [s|]; [|discriminate].
    destruct s; cbn [tsel_qsel]; try apply HQ.
    + destruct l; cbn; [discriminate|]. destruct (1 <? b2n b); discriminate.
    + pose proof (HU l). destruct (rd_u64 SrcRead l) as [[n l1]| | |]; cbn; try congruence.
      pose proof (HB n l1). destruct (rd_block SrcRead n l1) as [[b l2]| | |]; cbn; congruence.
    + pose proof (HU l). destruct (rd_u64 SrcRead l) as [[n l1]| | |]; cbn; try congruence.
      pose proof (HB n l1). destruct (rd_block SrcRead n l1) as [[b l2]| | |]; cbn; try congruence.
      destruct (utf8 b); discriminate.
    + pose proof (HU l). destruct (rd_u64 SrcRead l) as [[n l1]| | |] eqn:E; cbn; try congruence.
      pose proof (IHi n l1).
      destruct (dec_items utf8 SrcRead f n l1) as [[b l2]| | |]; cbn; congruence.
  - rewrite dec_items_S. destruct (n =? 0) eqn:E0; [discriminate|].
    destruct l as [|b l1]; [discriminate|].
    destruct (negb (dscr_valid (b2n b))) eqn:EV; [discriminate|].
    destruct (negb (has_left _ _)); [discriminate|].
    pose proof (IHe (b2n b) l1).
    destruct (dec_elem utf8 SrcRead f (b2n b) l1) as [[c l2]| | |] eqn:EE; cbn; try congruence.
    pose proof (IHi (n - 1) l2).
    destruct (dec_items utf8 SrcRead f (n - 1) l2) as [[cs l3]| | |]; cbn; congruence.
Qed.

Lemma NoDup_app_one {A} (l : list A) x : NoDup l -> ~ In x l -> NoDup (l ++ [x]).
Proof.
  intros H Hx. apply NoDup_rev in H. rewrite <- (rev_involutive (l ++ [x])). apply NoDup_rev.
  rewrite rev_app_distr. cbn. constructor; auto. rewrite <- in_rev. auto.
Qed.

(** * Dictionaries *)

Section Dicts.
Variable utf8 : bytes -> bool.

Inductive dentry_wf : dentry -> Prop :=
| dwf_data c : cell_wf utf8 c -> dentry_wf (DData c)
| dwf_map d : N.of_nat (length d) < two64 -> NoDup (map fst d) ->
    Forall (fun kv => len (fst kv) < two64 /\ utf8 (fst kv) = true) d ->
    Forall (fun kv => dentry_wf (snd kv)) d -> dentry_wf (DMap d).

Definition dict_wf (d : dict) : Prop := dentry_wf (DMap d).

Lemma dict_mem_in {V} k (d : list (bytes * V)) : dict_mem k d = true <-> In k (map fst d).
Proof.
  induction d as [|[k' v] d IH]; cbn; [split; [discriminate|tauto]|].
  rewrite orb_true_iff, IH, bseq_eq. intuition congruence.
Qed.

Lemma dict_mem_notin {V} k (d : list (bytes * V)) : ~ In k (map fst d) -> dict_mem k d = false.
Proof.
  intros. destruct (dict_mem k d) eqn:E; auto. apply dict_mem_in in E. contradiction.
Qed.

Lemma enc_entry_min k e : 9 <= len (enc_entry k e).
Proof. destruct e; cbn [enc_entry]; rewrite len_app, len_u64, len_cons; lia. Qed.

(** decoding of the value of an entry whose tag byte has been read *)
Definition enc_entry_val (e : dentry) : bytes :=
  match e with
  | DData c => enc_cell c
  | DMap d => enc_dict_full d
  end.
Definition entry_dscr (e : dentry) : byte := match e with DData c => enc_tag c | DMap _ => x0f end.

Lemma enc_entry_split k e : enc_entry k e = (u64_le (len k) ++ [entry_dscr e]) ++ k ++ enc_entry_val e.
Proof. destruct e; cbn [enc_entry entry_dscr enc_entry_val]; rewrite <- app_assoc; reflexivity. Qed.

Lemma entry_dscr_valid e : dscr_valid (b2n (entry_dscr e)) = true.
Proof. destruct e; [apply enc_tag_valid|reflexivity]. Qed.

Lemma entry_expect e k r : expect_atleast (b2n (entry_dscr e)) <= len (k ++ enc_entry_val e ++ r).
Proof.
  rewrite len_app. destruct e; cbn [entry_dscr enc_entry_val].
  - pose proof (expect_atleast_ok c r). lia.
  - unfold enc_dict_full. rewrite !len_app, len_u64. change (expect_atleast (b2n x0f)) with 8. lia.
Qed.

Lemma firstn_len_app {A} n (a b : list A) : length a = n -> firstn n (a ++ b) = a.
Proof. intros <-. rewrite firstn_app, Nat.sub_diag, firstn_all. cbn. apply app_nil_r. Qed.
Lemma skipn_len_app {A} n (a b : list A) : length a = n -> skipn n (a ++ b) = b.
Proof. intros <-. rewrite skipn_app, Nat.sub_diag, skipn_all. reflexivity. Qed.
Lemma le_dec_1 b : le_dec [b] = b2n b.
Proof. cbn. lia. Qed.

Lemma dec_entries_S f pretest size acc l : dec_entries utf8 (S f) pretest size acc l =
    if pretest && negb (N.of_nat (List.length acc) =? size) then
      match take 9 l with
      | None => RUb
      | Some (md, l1) =>
        if negb (dscr_valid (le_dec (skipn 8 md)) && has_left (expect_atleast (le_dec (skipn 8 md))) l1) then RErr else
        let* (k, l2) := rd_block SrcScan (le_dec (firstn 8 md)) l1 in
        match
          (if le_dec (skipn 8 md) =? 15 then
             let* (m, l3) := dec_dict_full_f utf8 f l2 in ROk (DMap m, l3)
           else
             let* (c, l3) := dec_cell utf8 SrcScan (le_dec (skipn 8 md)) l2 in ROk (DData c, l3))
        with
        | ROk (v, l3) =>
            if negb (utf8 k) then RErr else
            if dict_mem k acc then RErr else
            dec_entries utf8 f pretest size (acc ++ [(k, v)]) l3
        | RErr => RErr | RUb => RUb | RFuel => RFuel
        end
      end
    else if N.of_nat (List.length acc) =? size then ROk (acc, l) else RErr.
Proof. reflexivity. Qed.

Lemma dec_dict_full_S f l : dec_dict_full_f utf8 (S f) l =
    match take 8 l with
    | None => RErr
    | Some (a, l1) => dec_entries utf8 f (has_left 9 l1) (le_dec a) [] l1
    end.
Proof. reflexivity. Qed.

Lemma dec_entry_step f size acc k e r :
  len k < two64 -> utf8 k = true -> ~ In k (map fst acc) ->
  N.of_nat (length acc) <> size ->
  dec_entries utf8 (S f) true size acc (enc_entry k e ++ r) =
  match
    (if b2n (entry_dscr e) =? 15 then
       let* (m, l3) := dec_dict_full_f utf8 f (enc_entry_val e ++ r) in ROk (DMap m, l3)
     else
       let* (c, l3) := dec_cell utf8 SrcScan (b2n (entry_dscr e)) (enc_entry_val e ++ r) in ROk (DData c, l3))
  with
  | ROk (v, l3) => dec_entries utf8 f true size (acc ++ [(k, v)]) l3
  | RErr => RErr | RUb => RUb | RFuel => RFuel
  end.
Proof.
  intros HK HU HN HS. rewrite dec_entries_S.
  destruct (N.of_nat (length acc) =? size) eqn:E; [apply N.eqb_eq in E; contradiction|].
  cbn [negb andb].
  rewrite enc_entry_split, <- app_assoc.
  rewrite take_app_k by (rewrite app_length, u64_len; reflexivity).
  rewrite (firstn_len_app 8), (skipn_len_app 8) by apply u64_len. rewrite le_dec_1, u64_dec by auto.
  rewrite entry_dscr_valid. rewrite <- app_assoc. rewrite has_left_le by apply entry_expect.
  cbn [andb negb].
  rewrite rd_block_app. cbn [rbind]. rewrite HU. cbn [negb].
  rewrite dict_mem_notin by auto. reflexivity.
Qed.

Lemma dec_entries_roundtrip (d : dict) :
  Forall (fun kv => len (fst kv) < two64 /\ utf8 (fst kv) = true) d ->
  Forall (fun kv => forall f r, (length (enc_entry_val (snd kv)) < f)%nat ->
     (if b2n (entry_dscr (snd kv)) =? 15 then
       let* (m, l3) := dec_dict_full_f utf8 f (enc_entry_val (snd kv) ++ r) in ROk (DMap m, l3)
     else
       let* (c, l3) := dec_cell utf8 SrcScan (b2n (entry_dscr (snd kv))) (enc_entry_val (snd kv) ++ r) in ROk (DData c, l3))
     = ROk (snd kv, r)) d ->
  forall f acc r p, NoDup (map fst (acc ++ d)) -> (length (enc_dict_obj d) < f)%nat ->
  (d <> [] -> p = true) ->
  dec_entries utf8 f p (N.of_nat (length (acc ++ d))) acc (enc_dict_obj d ++ r) = ROk (acc ++ d, r).
Proof.
  intros HK HV. induction d as [|[k e] d IH]; intros f acc r p ND HF HP.
  - rewrite app_nil_r. destruct f; [lia|]. rewrite dec_entries_S.
    rewrite N.eqb_refl. cbn [negb]. rewrite andb_false_r. reflexivity.
  - rewrite (HP ltac:(discriminate)). clear p HP.
    inversion HK as [|? ? [Hk1 Hk2] HK']; subst. inversion HV as [|? ? Hv HV']; subst.
    cbn [fst snd] in *.
    destruct f as [|f]; [lia|].
    unfold enc_dict_obj in *. cbn [map concat fst snd] in *. rewrite app_length in HF.
    rewrite <- app_assoc.
    rewrite dec_entry_step; auto.
    + rewrite Hv.
      2:{ rewrite enc_entry_split, !app_length, u64_len in HF. cbn [length] in HF. lia. }
      replace (acc ++ (k, e) :: d) with ((acc ++ [(k, e)]) ++ d) by (rewrite <- app_assoc; reflexivity).
      apply IH; auto.
      * rewrite <- app_assoc. exact ND.
      * pose proof (enc_entry_min k e) as HM. unfold len in HM. lia.
    + rewrite map_app in ND. cbn [map fst] in ND. apply NoDup_remove_2 in ND.
      intros X. apply ND. apply in_or_app. auto.
    + rewrite app_length. cbn [length]. lia.
Qed.

Lemma enc_dict_obj_nonempty d r : d <> [] -> has_left 9 (enc_dict_obj d ++ r) = true.
Proof.
  destruct d as [|[k e] d]; [congruence|]. intros _. apply has_left_le.
  unfold enc_dict_obj. cbn [map concat fst snd]. rewrite !len_app.
  pose proof (enc_entry_min k e). lia.
Qed.

Lemma dentry_roundtrip e : dentry_wf e -> forall f r, (length (enc_entry_val e) < f)%nat ->
     (if b2n (entry_dscr e) =? 15 then
       let* (m, l3) := dec_dict_full_f utf8 f (enc_entry_val e ++ r) in ROk (DMap m, l3)
     else
       let* (c, l3) := dec_cell utf8 SrcScan (b2n (entry_dscr e)) (enc_entry_val e ++ r) in ROk (DData c, l3))
     = ROk (e, r).
Proof.
  induction e as [c|d IH] using dentry_ind'; intros WF f r HF; inversion WF; subst; cbn [entry_dscr enc_entry_val] in *.
  - destruct (b2n (enc_tag c) =? 15) eqn:E.
    { apply N.eqb_eq in E. apply enc_tag_not_dict in E. contradiction. }
    rewrite dec_cell_roundtrip by auto. reflexivity.
  - replace (b2n x0f =? 15) with true by reflexivity.
    unfold enc_dict_full in *. rewrite app_length, u64_len in HF.
    destruct f as [|f]; [lia|]. rewrite dec_dict_full_S.
    rewrite <- app_assoc, take_app_k by apply u64_len. rewrite u64_dec by auto.
    pose proof (dec_entries_roundtrip d H2) as HR.
    assert (HX : Forall (fun kv => forall f r, (length (enc_entry_val (snd kv)) < f)%nat ->
     (if b2n (entry_dscr (snd kv)) =? 15 then
       let* (m, l3) := dec_dict_full_f utf8 f (enc_entry_val (snd kv) ++ r) in ROk (DMap m, l3)
     else
       let* (c, l3) := dec_cell utf8 SrcScan (b2n (entry_dscr (snd kv))) (enc_entry_val (snd kv) ++ r) in ROk (DData c, l3))
     = ROk (snd kv, r)) d).
    { rewrite Forall_forall in *. intros kv Hin. apply IH; auto. }
    specialize (HR HX f [] r (has_left 9 (enc_dict_obj d ++ r))). cbn [app] in HR.
    rewrite HR; auto; [lia|]. intros. apply enc_dict_obj_nonempty; auto.
Qed.

Lemma dict_obj_roundtrip d r : dict_wf d ->
  dec_dict_obj utf8 (N.of_nat (length d)) (enc_dict_obj d ++ r) = ROk (d, r).
Proof.
  intros WF. inversion WF; subst. unfold dec_dict_obj.
  pose proof (dec_entries_roundtrip d H2) as HR.
  assert (HX : Forall (fun kv => forall f r, (length (enc_entry_val (snd kv)) < f)%nat ->
     (if b2n (entry_dscr (snd kv)) =? 15 then
       let* (m, l3) := dec_dict_full_f utf8 f (enc_entry_val (snd kv) ++ r) in ROk (DMap m, l3)
     else
       let* (c, l3) := dec_cell utf8 SrcScan (b2n (entry_dscr (snd kv))) (enc_entry_val (snd kv) ++ r) in ROk (DData c, l3))
     = ROk (snd kv, r)) d).
  { rewrite Forall_forall in *. intros kv Hin. apply dentry_roundtrip; auto. }
  specialize (HR HX (S (length (enc_dict_obj d ++ r))) [] r (has_left 9 (enc_dict_obj d ++ r))).
  cbn [app] in HR. apply HR; auto.
  - rewrite app_length. lia.
  - intros. apply enc_dict_obj_nonempty; auto.
Qed.

Lemma dict_full_roundtrip d r : dict_wf d ->
  dec_dict_full utf8 (enc_dict_full d ++ r) = ROk (d, r).
Proof.
  intros WF. pose proof (dentry_roundtrip (DMap d) WF (S (length (enc_dict_full d ++ r))) r) as H.
  cbn [entry_dscr enc_entry_val] in H. replace (b2n x0f =? 15) with true in H by reflexivity.
  unfold dec_dict_full.
  assert (HL : (length (enc_dict_full d) < S (length (enc_dict_full d ++ r)))%nat)
    by (rewrite app_length; lia).
  specialize (H HL).
  destruct (dec_dict_full_f utf8 (S (length (enc_dict_full d ++ r))) (enc_dict_full d ++ r)) as [[m l3]| | |];
    cbn [rbind] in H; inversion H; reflexivity.
Qed.

(** ** Inversion: accepted bytes are exactly an encoding; the recursion bound is never hit *)

Lemma firstn_skipn_9 md : length md = 9%nat ->
  exists b, skipn 8 md = [b] /\ md = u64_le (le_dec (firstn 8 md)) ++ [b] /\ le_dec (firstn 8 md) < two64.
Proof.
  intros H. assert (length (firstn 8 md) = 8%nat) by (rewrite firstn_length; lia).
  assert (length (skipn 8 md) = 1%nat) by (rewrite skipn_length; lia).
  destruct (skipn 8 md) as [|b [|]] eqn:E; try discriminate. exists b. split; auto.
  rewrite u64_enc_dec by auto. rewrite <- E. rewrite firstn_skipn.
  split; auto. apply u64_dec_bound; auto.
Qed.

Lemma dec_dict_inv f :
  (forall p size acc l d l', size < two64 -> dec_entries utf8 f p size acc l = ROk (d, l') ->
     exists d', d = acc ++ d' /\ l = enc_dict_obj d' ++ l' /\ N.of_nat (length d) = size /\
       Forall (fun kv => len (fst kv) < two64 /\ utf8 (fst kv) = true) d' /\
       Forall (fun kv => dentry_wf (snd kv)) d' /\
       (NoDup (map fst acc) -> NoDup (map fst d))) /\
  (forall l d l', dec_dict_full_f utf8 f l = ROk (d, l') -> l = enc_dict_full d ++ l' /\ dict_wf d).
Proof.
  induction f as [|f [IHe IHf]]; split; intros; try discriminate.
  - rewrite dec_entries_S in H0.
    destruct (p && negb (N.of_nat (length acc) =? size)) eqn:EP.
    + destruct (take 9 l) as [[md l1]|] eqn:ET; [|discriminate].
      apply take_some in ET as [-> ET]. apply firstn_skipn_9 in ET as (b & EB & EM & EL).
      rewrite EB, le_dec_1 in H0. remember (le_dec (firstn 8 md)) as klen eqn:Hklen. clear Hklen.
      destruct (negb _) eqn:EV in H0; [discriminate|].
      apply negb_false_iff, andb_true_iff in EV as [EV _]. apply N.leb_le in EV.
      destruct (rd_block SrcScan klen l1) as [[k l2]| | |] eqn:EK; try discriminate.
      cbn [rbind] in H0. apply rd_block_ok in EK as [-> EK].
      set (val := if b2n b =? 15 then _ else _) in H0.
      destruct val as [[v l3]| | |] eqn:EVV; try discriminate. subst val.
      destruct (utf8 k) eqn:EU; [|discriminate]. cbn [negb] in H0.
      destruct (dict_mem k acc) eqn:EMM; [discriminate|].
      assert (HV : b = entry_dscr v /\ l2 = enc_entry_val v ++ l3 /\ dentry_wf v).
      { destruct (b2n b =? 15) eqn:E15.
        - destruct (dec_dict_full_f utf8 f l2) as [[m l4]| | |] eqn:EF; try discriminate.
          cbn [rbind] in EVV. inversion EVV; subst. apply IHf in EF as [-> HW].
          apply N.eqb_eq in E15. split; [|split; auto].
          apply b2n_inj. rewrite E15. reflexivity.
        - destruct (dec_cell utf8 SrcScan (b2n b) l2) as [[c l4]| | |] eqn:EF; try discriminate.
          cbn [rbind] in EVV. inversion EVV; subst.
          apply dec_cell_inv in EF as (ET & -> & HW); auto.
          apply b2n_inj in ET. split; auto. split; auto. constructor; auto. }
      destruct HV as (-> & -> & HVW).
      apply IHe in H0 as (d' & -> & -> & HN & HF1 & HF2 & HND); auto.
      exists ((k, v) :: d'). rewrite <- app_assoc. cbn [app]. split; auto.
      split.
      { unfold enc_dict_obj. cbn [map concat fst snd]. rewrite enc_entry_split.
        rewrite EM, EK, <- !app_assoc. reflexivity. }
      split. { rewrite <- app_assoc in HN. exact HN. }
      split. { constructor; auto. cbn. split; auto. rewrite EK; auto. }
      split. { constructor; auto. }
      intros ND. rewrite <- app_assoc in HND. cbn [app] in HND. apply HND.
      rewrite map_app. cbn [map fst].
      apply NoDup_app_one; auto. intros X. apply dict_mem_in in X. congruence.
    + destruct (N.of_nat (length acc) =? size) eqn:ES; [|discriminate].
      inversion H0; subst. apply N.eqb_eq in ES. exists []. rewrite app_nil_r.
      repeat split; auto.
  - rewrite dec_dict_full_S in H.
    destruct (take 8 l) as [[a l1]|] eqn:ET; [|discriminate].
    apply take_some in ET as [-> ET].
    apply IHe in H as (d' & -> & -> & HN & HF1 & HF2 & HND); [|apply u64_dec_bound; auto].
    cbn [app] in *. unfold enc_dict_full. rewrite HN, u64_enc_dec by auto.
    rewrite <- app_assoc. split; auto. constructor; auto.
    + rewrite HN. apply u64_dec_bound; auto.
    + apply HND. constructor.
Qed.

Lemma dec_dict_nofuel f :
  (forall p size acc l, (length l < f)%nat -> dec_entries utf8 f p size acc l <> RFuel) /\
  (forall l, (length l < f)%nat -> dec_dict_full_f utf8 f l <> RFuel).
Proof.
  induction f as [|f [IHe IHf]]; split; intros; try lia.
  - rewrite dec_entries_S.
    destruct (p && negb (N.of_nat (length acc) =? size)) eqn:EP.
    + destruct (take 9 l) as [[md l1]|] eqn:ET; [|discriminate].
      apply take_some in ET as [-> ET]. rewrite app_length in H.
      apply firstn_skipn_9 in ET as (b & EB & EM & EL).
      assert (length md = 9%nat) by (rewrite EM, app_length, u64_len; reflexivity).
      rewrite EB, le_dec_1.
      destruct (dscr_valid (b2n b) && has_left (expect_atleast (b2n b)) l1) eqn:EV; [|discriminate].
      cbn [negb]. apply andb_true_iff in EV as [EV _]. apply N.leb_le in EV.
      pose proof (rd_block_nofuel SrcScan (le_dec (firstn 8 md)) l1) as HB.
      destruct (rd_block SrcScan _ l1) as [[k l2]| | |] eqn:EK; try discriminate; [|congruence].
      cbn [rbind]. apply rd_block_ok in EK as [-> EK]. rewrite app_length in H.
      destruct (b2n b =? 15) eqn:E15.
      * pose proof (IHf l2 ltac:(lia)).
        destruct (dec_dict_full_f utf8 f l2) as [[m l4]| | |] eqn:EF; try discriminate; [|congruence].
        cbn [rbind]. apply (proj2 (dec_dict_inv f)) in EF as [-> _]. rewrite app_length in H.
        destruct (negb (utf8 k)); [discriminate|]. destruct (dict_mem k acc); [discriminate|].
        apply IHe. lia.
      * pose proof (dec_cell_nofuel utf8 SrcScan (b2n b) l2).
        destruct (dec_cell utf8 SrcScan (b2n b) l2) as [[c l4]| | |] eqn:EF; try discriminate; [|congruence].
        cbn [rbind]. apply dec_cell_inv in EF as (_ & -> & _); auto. rewrite app_length in H.
        destruct (negb (utf8 k)); [discriminate|]. destruct (dict_mem k acc); [discriminate|].
        apply IHe. lia.
    + destruct (N.of_nat (length acc) =? size); discriminate.
  - rewrite dec_dict_full_S. destruct (take 8 l) as [[a l1]|] eqn:ET; [|discriminate].
    apply take_some in ET as [-> ET]. rewrite app_length in H. apply IHe. lia.
Qed.

(** * Field maps and layouts *)

(** A type as the server builds it ([Field::parse_layers]): lists outside, one non-list innermost. *)
Inductive layers_ok : list tsel -> Prop :=
| lok_base s : s <> TsList -> layers_ok [s]
| lok_list ls : layers_ok ls -> layers_ok (TsList :: ls).

Definition field_wf (f : field) : Prop :=
  layers_ok (f_layers f) /\ N.of_nat (length (f_layers f)) < two64.

Lemma u64_ok_code s : tsel_code s < two64.
Proof. pose proof (tsel_code_max s). unfold two64. lia. Qed.

Lemma dec_layers_step f n s r : n <> 0 ->
  dec_layers (S f) n (enc_layer s ++ r) =
  if negb (tclass_eqb (tsel_class s) TcList) then ROk ([s], true, r)
  else let* (ss, fin, l3) := dec_layers f (n - 1) r in ROk (s :: ss, fin, l3).
Proof.
  intros Hn. cbn [dec_layers]. unfold enc_layer. rewrite <- app_assoc.
  assert (HL : 16 <= len (u64_le (tsel_code s) ++ u64_le 0 ++ r)) by (rewrite !len_app, !len_u64; lia).
  rewrite has_left_le by auto.
  destruct (len _ =? 0) eqn:E0; [apply N.eqb_eq in E0; lia|].
  destruct (n =? 0) eqn:E1; [apply N.eqb_eq in E1; lia|]. cbn [orb negb].
  rewrite !take_app_k by apply u64_len.
  rewrite !u64_dec by (try apply u64_ok_code; reflexivity).
  pose proof (tsel_code_max s).
  destruct (13 <? tsel_code s) eqn:E; [apply N.ltb_lt in E; lia|].
  change (0 =? 0) with true. cbn [orb negb]. rewrite tsel_of_code_code. reflexivity.
Qed.

Lemma dec_layers_roundtrip ls : layers_ok ls -> forall f r, (length (enc_layers ls) < f)%nat ->
  dec_layers f (N.of_nat (length ls)) (enc_layers ls ++ r) = ROk (ls, true, r).
Proof.
  induction 1 as [s Hs|ls Hls IH]; intros f r HF; destruct f as [|f]; try lia.
  - unfold enc_layers. cbn [map concat]. rewrite app_nil_r.
    rewrite dec_layers_step by discriminate. destruct s; try reflexivity. congruence.
  - unfold enc_layers in *. cbn [map concat] in *. rewrite app_length in HF.
    rewrite <- app_assoc. rewrite dec_layers_step by (cbn [length]; lia).
    cbn [tsel_class]. change (tclass_eqb TcList TcList) with true. cbn [negb].
    replace (N.of_nat (length (TsList :: ls)) - 1) with (N.of_nat (length ls)) by (cbn [length]; lia).
    unfold enc_layer in HF at 1. rewrite app_length, !u64_len in HF.
    rewrite IH by lia. reflexivity.
Qed.

Lemma dec_field_roundtrip f r : field_wf f ->
  dec_field 0 (N.of_nat (length (f_layers f))) (if f_null f then 1 else 0) (enc_layers (f_layers f) ++ r)
  = ROk (f, r).
Proof.
  intros [HL HB]. unfold dec_field. rewrite dec_layers_roundtrip; auto.
  2:{ rewrite app_length. lia. }
  cbn [rbind]. rewrite N.eqb_refl. destruct f as [n ls]; destruct n; reflexivity.
Qed.

Definition fieldmap_wf (m : fieldmap) : Prop :=
  NoDup (map fst m) /\ N.of_nat (length m) < two64 /\
  Forall (fun kv => len (fst kv) < two64 /\ utf8 (fst kv) = true /\ field_wf (snd kv)) m.

Lemma enc_field_entry_min kv : 25 <= len (enc_field_entry kv).
Proof. destruct kv as [k f]. unfold enc_field_entry. rewrite !len_app, !len_u64, len_cons. lia. Qed.

Lemma dec_fields_roundtrip (m : fieldmap) :
  Forall (fun kv => len (fst kv) < two64 /\ utf8 (fst kv) = true /\ field_wf (snd kv)) m ->
  forall f acc r p, NoDup (map fst (acc ++ m)) -> (length (enc_fields m) < f)%nat ->
  (m <> [] -> p = true) ->
  dec_fields_f utf8 f p (N.of_nat (length (acc ++ m))) acc (enc_fields m ++ r) = ROk (acc ++ m, r).
Proof.
  intros HK. induction m as [|[k fd] m IH]; intros f acc r p ND HF HP.
  - rewrite app_nil_r. destruct f; [lia|]. cbn [dec_fields_f].
    rewrite N.eqb_refl. cbn [negb]. rewrite andb_false_r. reflexivity.
  - rewrite (HP ltac:(discriminate)). clear p HP.
    inversion HK as [|? ? [Hk1 [Hk2 Hk3]] HK']; subst. cbn [fst snd] in *.
    destruct f as [|f]; [lia|].
    unfold enc_fields in *. cbn [map concat] in *. rewrite app_length in HF.
    pose proof (enc_field_entry_min (k, fd)) as HM. unfold len in HM.
    cbn [dec_fields_f].
    destruct (N.of_nat (length (acc ++ (k, fd) :: m)) =? 0) eqn:EX.
    { apply N.eqb_eq in EX. rewrite app_length in EX. cbn [length] in EX. lia. }
    destruct (N.of_nat (length acc) =? N.of_nat (length (acc ++ (k, fd) :: m))) eqn:E.
    { apply N.eqb_eq in E. rewrite app_length in E. cbn [length] in E. lia. }
    cbn [andb negb]. clear EX E.
    unfold enc_field_entry at 1. rewrite <- !app_assoc.
    set (nb := if f_null fd then x01 else x00).
    change (take 25 (u64_le (len k) ++ u64_le 0 ++ u64_le (N.of_nat (length (f_layers fd))) ++ [nb] ++ k ++ enc_layers (f_layers fd) ++ concat (map enc_field_entry m) ++ r))
      with (take 25 (u64_le (len k) ++ u64_le 0 ++ u64_le (N.of_nat (length (f_layers fd))) ++ [nb] ++ (k ++ enc_layers (f_layers fd) ++ concat (map enc_field_entry m) ++ r))).
    replace (u64_le (len k) ++ u64_le 0 ++ u64_le (N.of_nat (length (f_layers fd))) ++ [nb] ++ (k ++ enc_layers (f_layers fd) ++ concat (map enc_field_entry m) ++ r))
      with ((u64_le (len k) ++ u64_le 0 ++ u64_le (N.of_nat (length (f_layers fd))) ++ [nb]) ++ (k ++ enc_layers (f_layers fd) ++ concat (map enc_field_entry m) ++ r))
      by (rewrite <- !app_assoc; reflexivity).
    rewrite take_app_k by (rewrite !app_length, !u64_len; reflexivity).
    rewrite (firstn_len_app 8) by apply u64_len.
    rewrite (skipn_len_app 8) by apply u64_len.
    rewrite (firstn_len_app 8) by apply u64_len.
    replace (skipn 16 (u64_le (len k) ++ u64_le 0 ++ u64_le (N.of_nat (length (f_layers fd))) ++ [nb]))
      with (u64_le (N.of_nat (length (f_layers fd))) ++ [nb])
      by (symmetry; rewrite app_assoc; apply skipn_len_app; rewrite app_length, !u64_len; reflexivity).
    rewrite (firstn_len_app 8) by apply u64_len.
    replace (skipn 24 (u64_le (len k) ++ u64_le 0 ++ u64_le (N.of_nat (length (f_layers fd))) ++ [nb]))
      with [nb]
      by (symmetry; rewrite !app_assoc; apply skipn_len_app; rewrite !app_length, !u64_len; reflexivity).
    destruct Hk3 as [HL HB].
    rewrite le_dec_1, !u64_dec by (auto; reflexivity).
    rewrite has_left_le by (rewrite len_app; lia). cbn [negb].
    rewrite rd_block_app. cbn [rbind].
    replace (b2n nb) with (if f_null fd then 1 else 0) by (subst nb; destruct (f_null fd); reflexivity).
    rewrite dec_field_roundtrip by (split; auto).
    rewrite Hk2. cbn [negb]. rewrite dict_mem_notin.
    + replace (acc ++ (k, fd) :: m) with ((acc ++ [(k, fd)]) ++ m) by (rewrite <- app_assoc; reflexivity).
      apply IH; auto.
      * rewrite <- app_assoc. exact ND.
      * lia.
    + rewrite map_app in ND. cbn [map fst] in ND. apply NoDup_remove_2 in ND.
      intros X. apply ND. apply in_or_app. auto.
Qed.

Lemma fields_roundtrip m r : fieldmap_wf m ->
  dec_fields utf8 (N.of_nat (length m)) (enc_fields m ++ r) = ROk (m, r).
Proof.
  intros (ND & HB & HF). unfold dec_fields.
  pose proof (dec_fields_roundtrip m HF (S (length (enc_fields m ++ r))) [] r
                (has_left 25 (enc_fields m ++ r))) as H.
  cbn [app] in H. apply H; auto.
  - rewrite app_length. lia.
  - destruct m as [|kv m]; [congruence|]. intros _. apply has_left_le.
    unfold enc_fields. cbn [map concat]. rewrite !len_app.
    pose proof (enc_field_entry_min kv). lia.
Qed.

Definition layout_wf (m : layout) : Prop :=
  lo_uuid m < two128 /\ len (lo_pk m) < two64 /\ utf8 (lo_pk m) = true /\ fieldmap_wf (lo_fields m).

Lemma layout_roundtrip m r : layout_wf m ->
  dec_layout utf8 (enc_layout m ++ r) = ROk (m, r).
Proof.
  intros (HU & HP & HP8 & HF). unfold dec_layout, enc_layout, enc_layout_meta, enc_layout_obj.
  rewrite has_left_le by (rewrite !len_app, len_u128, !len_u64; lia). cbn [negb].
  unfold dec_layout_meta. rewrite <- !app_assoc.
  rewrite take_app_k by apply u128_len.
  pose proof (proj1 (proj2 HF)).
  rewrite !rd_u64_app by (try apply u64_ok_code; auto). cbn [rbind].
  rewrite rd_u64_app by (try apply u64_ok_code; auto). cbn [rbind].
  rewrite rd_u64_app by (try apply u64_ok_code; auto). cbn [rbind lm_pklen].
  rewrite u128_dec by auto.
  rewrite has_left_le by (rewrite len_app; lia). cbn [negb].
  unfold dec_layout_obj. cbn [lm_uuid lm_pklen lm_ptag lm_fieldc].
  rewrite rd_block_app. cbn [rbind]. rewrite HP8. cbn [negb].
  rewrite fields_roundtrip by auto. cbn [rbind].
  rewrite tsel_of_code_code. destruct m; reflexivity.
Qed.

Definition space_wf (s : space_layout) : Prop := sl_uuid s < two128 /\ dict_wf (sl_props s).

Lemma space_roundtrip s r : space_wf s -> dec_space utf8 (enc_space s ++ r) = ROk (s, r).
Proof.
  intros [HU HD]. unfold dec_space, enc_space.
  rewrite has_left_le by (rewrite !len_app, len_u128, !len_u64; lia). cbn [negb].
  rewrite <- !app_assoc. rewrite take_app_k by apply u128_len.
  assert (N.of_nat (length (sl_props s)) < two64) by (inversion HD; auto).
  rewrite rd_u64_app by auto. cbn [rbind]. rewrite dict_obj_roundtrip by auto. cbn [rbind].
  rewrite u128_dec by auto. destruct s; reflexivity.
Qed.

End Dicts.
