(** Inversion of the layout decoders: accepted bytes are an encoding of the result. *)
From Coq Require Import List NArith Bool Lia.
From Verif Require Import Bytes DataModel CodecModel CodecProofs.
Import ListNotations.
Local Open Scope N_scope.

Lemma tsel_of_code_inv n t : tsel_of_code n = Some t -> n = tsel_code t.
Proof.
  unfold tsel_of_code. intros H.
  repeat match type of H with
  | context [match ?x with _ => _ end] => is_var x; destruct x
  end; try discriminate; inversion H; reflexivity.
Qed.

Lemma enc_layers_cons t ls : enc_layers (t :: ls) = enc_layer t ++ enc_layers ls.
Proof. reflexivity. Qed.

Lemma dec_layers_inv f : forall n l ss fin l', dec_layers f n l = ROk (ss, fin, l') ->
  l = enc_layers ss ++ l' /\ (fin = true -> layers_ok ss).
Proof.
  induction f as [|f IH]; intros n l ss fin l' H; [discriminate|].
  cbn [dec_layers] in H.
  destruct ((len l =? 0) || (n =? 0) || negb (has_left 16 l)).
  { inversion H; subst. split; [reflexivity|discriminate]. }
  destruct (take 8 l) as [[a l1]|] eqn:E1; [|discriminate].
  destruct (take 8 l1) as [[b l2]|] eqn:E2; [|discriminate].
  apply take_some in E1 as [-> E1]. apply take_some in E2 as [-> E2].
  destruct ((13 <? le_dec a) || negb (le_dec b =? 0)) eqn:EB; [discriminate|].
  apply orb_false_iff in EB as [_ EB]. apply negb_false_iff, N.eqb_eq in EB.
  destruct (tsel_of_code (le_dec a)) as [s|] eqn:ES; [|discriminate].
  apply tsel_of_code_inv in ES.
  assert (HA : a ++ b ++ l2 = enc_layer s ++ l2).
  { unfold enc_layer. rewrite <- ES, <- EB, !u64_enc_dec by auto. rewrite <- app_assoc. reflexivity. }
  rewrite HA. clear HA EB ES.
  destruct (negb (tclass_eqb (tsel_class s) TcList)) eqn:EC.
  - inversion H; subst. rewrite enc_layers_cons. split; [unfold enc_layers; cbn [map concat]; rewrite app_nil_r; reflexivity|].
    intros _. constructor. intros ->. discriminate.
  - destruct (dec_layers f (n - 1) l2) as [[[ss1 fin1] l3]| | |] eqn:ED; try discriminate.
    cbn [rbind] in H. inversion H; subst. apply IH in ED as [-> HO].
    rewrite enc_layers_cons, <- app_assoc. split; [reflexivity|].
    intros HF. replace s with TsList; [constructor; auto|].
    destruct s; try discriminate; reflexivity.
Qed.

Lemma dec_field_inv pc lc nl l v l' : lc < two64 -> dec_field pc lc nl l = ROk (v, l') ->
  l = enc_layers (f_layers v) ++ l' /\ field_wf v /\ pc = 0 /\
  lc = N.of_nat (length (f_layers v)) /\ nl = (if f_null v then 1 else 0).
Proof.
  unfold dec_field. intros HB H.
  destruct (dec_layers _ lc l) as [[[ss fin] l1]| | |] eqn:E; try discriminate.
  cbn [rbind] in H.
  destruct ((N.of_nat (length ss) =? lc) && (nl <=? 1) && (pc =? 0) && fin) eqn:EC; [|discriminate].
  apply andb_true_iff in EC as [EC HF]. apply andb_true_iff in EC as [EC HP].
  apply andb_true_iff in EC as [HL HN].
  apply N.eqb_eq in HL, HP. apply N.leb_le in HN.
  inversion H; subst v l'. apply dec_layers_inv in E as [-> HO].
  cbn [f_layers f_null]. unfold field_wf. cbn [f_layers].
  repeat split; auto.
  - rewrite HL. auto.
  - destruct (nl =? 1) eqn:E1; [apply N.eqb_eq in E1; auto|apply N.eqb_neq in E1; lia].
Qed.

Section Inv.
Variable utf8 : bytes -> bool.

Lemma firstn_skipn_25 md : length md = 25%nat ->
  exists b, skipn 24 md = [b] /\
  md = u64_le (le_dec (firstn 8 md)) ++ u64_le (le_dec (firstn 8 (skipn 8 md)))
         ++ u64_le (le_dec (firstn 8 (skipn 16 md))) ++ [b] /\
  le_dec (firstn 8 md) < two64 /\ le_dec (firstn 8 (skipn 16 md)) < two64.
Proof.
  intros H.
  assert (L1 : length (firstn 8 md) = 8%nat) by (rewrite firstn_length; lia).
  assert (L2 : length (firstn 8 (skipn 8 md)) = 8%nat) by (rewrite firstn_length, skipn_length; lia).
  assert (L3 : length (firstn 8 (skipn 16 md)) = 8%nat) by (rewrite firstn_length, skipn_length; lia).
  assert (L4 : length (skipn 24 md) = 1%nat) by (rewrite skipn_length; lia).
  destruct (skipn 24 md) as [|b [|]] eqn:E; try discriminate.
  exists b. split; auto. rewrite !u64_enc_dec by auto. rewrite <- E.
  split; [|split; apply u64_dec_bound; auto].
  rewrite <- (firstn_skipn 8 md) at 1. f_equal.
  rewrite <- (firstn_skipn 8 (skipn 8 md)) at 1. f_equal.
  replace (skipn 8 (skipn 8 md)) with (skipn 16 md)
    by (do 16 (destruct md as [|? md]; [discriminate|]); reflexivity).
  rewrite <- (firstn_skipn 8 (skipn 16 md)) at 1. f_equal.
  do 24 (destruct md as [|? md]; [discriminate|]); reflexivity.
Qed.

Lemma dec_fields_inv f : forall p size acc l m l', size < two64 ->
  dec_fields_f utf8 f p size acc l = ROk (m, l') ->
  exists m', m = acc ++ m' /\ l = enc_fields m' ++ l' /\ N.of_nat (length m) = size /\
    Forall (fun kv => len (fst kv) < two64 /\ utf8 (fst kv) = true /\ field_wf (snd kv)) m' /\
    (NoDup (map fst acc) -> NoDup (map fst m)).
Proof.
  induction f as [|f IH]; intros p size acc l m l' HS H; [discriminate|].
  cbn [dec_fields_f] in H.
  destruct (p && negb (N.of_nat (length acc) =? size)) eqn:EP.
  - destruct (take 25 l) as [[md l1]|] eqn:ET; [|discriminate].
    apply take_some in ET as [-> ET]. apply firstn_skipn_25 in ET as (b & EB & EM & EL1 & EL2).
    rewrite EB, le_dec_1 in H. rewrite EM. clear EM EB.
    remember (le_dec (firstn 8 md)) as klen eqn:Hk. clear Hk.
    remember (le_dec (firstn 8 (skipn 8 md))) as pc eqn:Hk. clear Hk.
    remember (le_dec (firstn 8 (skipn 16 md))) as lc eqn:Hk. clear Hk.
    destruct (negb (has_left klen l1)); [discriminate|].
    destruct (rd_block SrcScan klen l1) as [[k l2]| | |] eqn:EK; try discriminate.
    cbn [rbind] in H. apply rd_block_ok in EK as [-> EK].
    destruct (dec_field pc lc (b2n b) l2) as [[v l3]| | |] eqn:EV; try discriminate.
    apply dec_field_inv in EV as (-> & HW & -> & -> & HN); auto.
    destruct (utf8 k) eqn:EU; [|discriminate]. cbn [negb] in H.
    destruct (dict_mem k acc) eqn:EMM; [discriminate|].
    apply IH in H as (m' & -> & -> & HL & HF & HND); auto.
    exists ((k, v) :: m'). split; [rewrite <- app_assoc; reflexivity|].
    split; [|split; [exact HL|split]].
    + unfold enc_fields. cbn [map concat]. unfold enc_field_entry at 2.
      replace b with (if f_null v then x01 else x00)
        by (apply b2n_inj; rewrite HN; destruct (f_null v); reflexivity).
      rewrite EK, <- !app_assoc. reflexivity.
    + constructor; auto. cbn [fst snd]. rewrite EK. auto.
    + intros ND. apply HND. rewrite map_app. cbn [map fst]. apply NoDup_app_one; auto.
      intros X. apply (dict_mem_in utf8) in X. congruence.
  - destruct (N.of_nat (length acc) =? size) eqn:E; [|discriminate].
    apply N.eqb_eq in E. inversion H; subst. exists []. rewrite app_nil_r.
    repeat split; auto.
Qed.

Lemma dec_layout_inv l m l' : dec_layout utf8 l = ROk (m, l') ->
  l = enc_layout m ++ l' /\ layout_wf utf8 m.
Proof.
  unfold dec_layout. destruct (negb (has_left 40 l)); [discriminate|].
  unfold dec_layout_meta. intros H.
  destruct (take 16 l) as [[u l1]|] eqn:E1; [|discriminate].
  apply take_some in E1 as [-> E1].
  destruct (rd_u64 SrcScan l1) as [[a l2]| | |] eqn:E2; try discriminate. cbn [rbind] in H.
  destruct (rd_u64 SrcScan l2) as [[b l3]| | |] eqn:E3; try discriminate. cbn [rbind] in H.
  destruct (rd_u64 SrcScan l3) as [[c l4]| | |] eqn:E4; try discriminate. cbn [rbind] in H.
  cbn [lm_pklen] in H. destruct (negb (has_left a l4)); [discriminate|].
  unfold dec_layout_obj in H. cbn [lm_uuid lm_pklen lm_ptag lm_fieldc] in H.
  destruct (rd_block SrcScan a l4) as [[k l5]| | |] eqn:E5; try discriminate. cbn [rbind] in H.
  destruct (utf8 k) eqn:EU; [|discriminate]. cbn [negb] in H.
  destruct (dec_fields utf8 c l5) as [[fm l6]| | |] eqn:E6; try discriminate. cbn [rbind] in H.
  destruct (tsel_of_code b) as [t|] eqn:ES; [|discriminate]. apply tsel_of_code_inv in ES.
  inversion H; subst m l'. clear H.
  apply rd_u64_ok in E2 as [-> E2]. apply rd_u64_ok in E3 as [-> E3]. apply rd_u64_ok in E4 as [-> E4].
  apply rd_block_ok in E5 as [-> E5].
  unfold dec_fields in E6. apply dec_fields_inv in E6 as (m' & -> & -> & HL & HF & HND); auto.
  cbn [app] in *. subst a b c.
  unfold enc_layout, enc_layout_meta, enc_layout_obj, layout_wf, fieldmap_wf.
  cbn [lo_uuid lo_pk lo_ptag lo_fields].
  split.
  - rewrite <- !app_assoc. f_equal. unfold u128_le. symmetry. apply le_enc_dec_k; auto.
  - split; [apply u128_dec_bound; auto|]. repeat split; auto. apply HND. constructor.
Qed.

Lemma dec_space_inv l s l' : dec_space utf8 l = ROk (s, l') ->
  l = enc_space s ++ l' /\ space_wf utf8 s.
Proof.
  unfold dec_space. destruct (negb (has_left 24 l)); [discriminate|]. intros H.
  destruct (take 16 l) as [[u l1]|] eqn:E1; [|discriminate].
  apply take_some in E1 as [-> E1].
  destruct (rd_u64 SrcScan l1) as [[a l2]| | |] eqn:E2; try discriminate. cbn [rbind] in H.
  destruct (dec_dict_obj utf8 a l2) as [[d l3]| | |] eqn:E3; try discriminate. cbn [rbind] in H.
  inversion H; subst s l'. clear H. apply rd_u64_ok in E2 as [-> E2].
  unfold dec_dict_obj in E3. apply (proj1 (dec_dict_inv utf8 _)) in E3 as (d' & -> & -> & HN & HF1 & HF2 & HND); auto.
  cbn [app] in *. subst a.
  unfold enc_space, space_wf. cbn [sl_uuid sl_props]. split.
  - rewrite <- !app_assoc. f_equal. unfold u128_le. symmetry. apply le_enc_dec_k; auto.
  - split; [apply u128_dec_bound; auto|]. constructor; auto. apply HND. constructor.
Qed.
End Inv.
