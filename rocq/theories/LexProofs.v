(** The lexer meets its specification. *)
From Coq Require Import Strings.String List Arith NArith ZArith Bool Lia.
From Verif Require Import Bytes NumModel NumProofs RowModel LexModel LexSpec.
Import ListNotations.
Local Open Scope N_scope.

(* ------------------------------------------------------------------ *)
(** * Bytes *)

Lemma lower_low b : lower b = low b.
Proof. destruct b; reflexivity. Qed.

Lemma map_lower w : map lower w = map low w.
Proof. apply map_ext. exact lower_low. Qed.

Lemma eq_ci_iff a b : eq_ci a b = true <-> map low a = map low b.
Proof. unfold eq_ci. rewrite !map_lower. apply bseq_eq. Qed.

Lemma letter_iff b : is_alpha b = true <-> letter b.
Proof.
  destruct b; cbv -[N.le]; split; intros H; try discriminate H; try lia; try reflexivity.
Qed.

Lemma word_start_iff b : word_start b = true <-> wstart b.
Proof. unfold word_start, wstart. rewrite orb_true_iff, letter_iff, beq_eq. reflexivity. Qed.

Lemma word_byte_iff b : word_byte b = true <-> wbyte b.
Proof. unfold word_byte, wbyte. rewrite !orb_true_iff, letter_iff, is_digit_iff, beq_eq. tauto. Qed.

Lemma wstart_wbyte b : wstart b -> wbyte b.
Proof. unfold wstart, wbyte. tauto. Qed.

Lemma is_space_iff b : is_space b = true <-> blank b.
Proof. unfold is_space, blank. rewrite !orb_true_iff, !beq_eq. tauto. Qed.

(* ------------------------------------------------------------------ *)
(** * Symbols *)

Lemma sym_get_char s : sym_get (sym_char s) = Some s.
Proof. destruct s; vm_compute; reflexivity. Qed.

Lemma sym_get_some b s : sym_get b = Some s -> b = sym_char s.
Proof. destruct b; vm_compute; intros H; try discriminate H; injection H as <-; reflexivity. Qed.

Lemma sym_char_kind s : s <> SUnderscore ->
  word_start (sym_char s) = false /\ is_space (sym_char s) = false /\ beq (sym_char s) x3f = (hole (TSym s)).
Proof. destruct s; intros H; try congruence; vm_compute; repeat split. Qed.

Lemma sym_char_inj s s' : sym_char s = sym_char s' -> s = s'.
Proof. intros H. pose proof (sym_get_char s) as A. rewrite H, sym_get_char in A. congruence. Qed.

(* ------------------------------------------------------------------ *)
(** * Keywords *)

Lemma kw_lut_in w k : In (w, k) kw_lut -> w = spelling k.
Proof.
  intros H. repeat (destruct H as [H|H]; [injection H as <- <-; reflexivity|]). destruct H.
Qed.

Lemma low_spelling k : map low (spelling k) = spelling k.
Proof. destruct k as [k|k]; destruct k; vm_compute; reflexivity. Qed.

(** reserved words consist of letters; a byte whose lower case is a letter hashes like the letter *)
Lemma low_lor c d : low c = d -> 97 <= b2n d <= 122 -> N.lor (b2n c) 32 = N.lor (b2n d) 32.
Proof. intros <-. destruct c; cbv -[N.le]; intros H; try lia; reflexivity. Qed.

Lemma kw_sum_low block : forall key key' i, map low key = key' ->
  Forall (fun d => 97 <= b2n d <= 122) key' -> kw_sum key block i = kw_sum key' block i.
Proof.
  induction key as [|c key IH]; intros key' i <- F; [reflexivity|].
  cbn [map kw_sum] in *. inversion F; subst. rewrite (low_lor c _ eq_refl) by assumption.
  rewrite (IH _ (S i) eq_refl) by assumption. reflexivity.
Qed.

Lemma spelling_letters k : Forall (fun d => 97 <= b2n d <= 122) (spelling k).
Proof.
  apply Forall_forall. intros d H.
  assert (C : forallb (fun d => (97 <=? b2n d) && (b2n d <=? 122)) (spelling k) = true)
    by (destruct k as [k|k]; destruct k; vm_compute; reflexivity).
  rewrite forallb_forall in C. specialize (C _ H). apply andb_true_iff in C as [C1 C2].
  apply N.leb_le in C1. apply N.leb_le in C2. lia.
Qed.

Lemma kw_compute_spelling k : kw_compute (spelling k) = Some k.
Proof. destruct k as [k|k]; destruct k; vm_compute; reflexivity. Qed.

Lemma kw_len k : 2 <= len (spelling k) <= 11.
Proof. destruct k as [k|k]; destruct k; vm_compute; split; intros H; discriminate H. Qed.

Lemma len_map f w : len (map f w) = len w.
Proof. unfold len. rewrite map_length. reflexivity. Qed.

Theorem kw_get_iff w k : kw_get w = Some k <-> map low w = spelling k.
Proof.
  unfold kw_get. split.
  - destruct (_ || _); [discriminate|]. unfold kw_compute.
    destruct (nth_error kw_lut _) as [[w' k']|] eqn:E; [|discriminate].
    apply nth_error_In in E. apply kw_lut_in in E.
    destruct (eq_ci w' w) eqn:C; [|discriminate]. intros H. injection H as <-. subst w'.
    apply eq_ci_iff in C. rewrite low_spelling in C. congruence.
  - intros H.
    assert (L : (11 <? len w) || (len w <? 2) = false).
    { pose proof (kw_len k) as K. rewrite <- H, len_map in K. apply orb_false_iff.
      split; apply N.ltb_ge; lia. }
    rewrite L. unfold kw_compute.
    rewrite (kw_sum_low kw_m1 w _ 0%nat H), (kw_sum_low kw_m2 w _ 0%nat H) by apply spelling_letters.
    pose proof (kw_compute_spelling k) as S. unfold kw_compute in S.
    destruct (nth_error kw_lut _) as [[w' k']|] eqn:E; [|discriminate S].
    destruct (eq_ci w' (spelling k)) eqn:C; [|discriminate S].
    apply eq_ci_iff in C. rewrite low_spelling in C.
    replace (eq_ci w' w) with true; [exact S|]. symmetry. apply eq_ci_iff. congruence.
Qed.

Lemma spelling_inj k k' : spelling k = spelling k' -> k = k'.
Proof.
  intros H. pose proof (kw_compute_spelling k) as A. rewrite H, kw_compute_spelling in A. congruence.
Qed.

Lemma spelling_bool k : spelling k <> bstr "true"%string /\ spelling k <> bstr "false"%string.
Proof. destruct k as [k|k]; destruct k; vm_compute; split; intros H; discriminate H. Qed.

Lemma word_token_iff w t : word_token w = t <-> word_tok w t.
Proof.
  unfold word_token. destruct (kw_get w) as [k|] eqn:E.
  - apply kw_get_iff in E. split.
    + intros <-. constructor. exact E.
    + intros H. destruct H as [k' H|H|H|H1 H2 H3].
      * rewrite E in H. apply spelling_inj in H. congruence.
      * destruct (spelling_bool k) as [A B]. congruence.
      * destruct (spelling_bool k) as [A B]. congruence.
      * elim (H1 k E).
  - assert (N : forall k, map low w <> spelling k).
    { intros k H. apply kw_get_iff in H. congruence. }
    destruct (eq_ci w (bstr "true")) eqn:T; cbn [orb].
    + apply eq_ci_iff in T. change (map low (bstr "true")) with (bstr "true") in T.
      split; [intros <-; constructor; exact T|].
      intros H. destruct H as [k' H|H|H|H1 H2 H3]; try congruence.
      rewrite T in H. discriminate H.
    + assert (T' : map low w <> bstr "true"%string).
      { intros H. enough (eq_ci w (bstr "true") = true) by congruence. apply eq_ci_iff. exact H. }
      destruct (eq_ci w (bstr "false")) eqn:F.
      * apply eq_ci_iff in F. change (map low (bstr "false")) with (bstr "false") in F.
        split; [intros <-; constructor; exact F|].
        intros H. destruct H as [k' H|H|H|H1 H2 H3]; try congruence; elim (N _ H).
      * assert (F' : map low w <> bstr "false"%string).
        { intros H. enough (eq_ci w (bstr "false") = true) by congruence. apply eq_ci_iff. exact H. }
        split; [intros <-; constructor; assumption|].
        intros H. destruct H as [k' H|H|H|H1 H2 H3]; try congruence; elim (N _ H).
Qed.

Lemma word_tok_not_hole w t : word_tok w t -> hole t = false.
Proof. intros H. destruct H; reflexivity. Qed.

(* ------------------------------------------------------------------ *)
(** * Words and blanks *)

Lemma scan_ident_spec q : forall w r, scan_ident q = (w, r) ->
  q = w ++ r /\ Forall wbyte w /\ match r with [] => True | b :: _ => ~ wbyte b end.
Proof.
  induction q as [|b q IH]; intros w r; cbn [scan_ident].
  - intros H. injection H as <- <-. repeat split. constructor.
  - destruct (word_byte b) eqn:E.
    + destruct (scan_ident q) as [w' r']. destruct (IH _ _ eq_refl) as (-> & F & G).
      intros H. injection H as <- <-. repeat split; [|exact G]. constructor; [|exact F].
      apply word_byte_iff. exact E.
    + intros H. injection H as <- <-. repeat split; [constructor|].
      rewrite <- word_byte_iff. congruence.
Qed.

Lemma scan_ident_app w : forall r, Forall wbyte w -> match r with [] => True | b :: _ => ~ wbyte b end ->
  scan_ident (w ++ r) = (w, r).
Proof.
  induction w as [|b w IH]; intros r F G.
  - destruct r as [|c r]; [reflexivity|]. cbn [app scan_ident]. rewrite <- word_byte_iff in G.
    destruct (word_byte c); [congruence|reflexivity].
  - inversion F; subst. cbn [app scan_ident]. apply word_byte_iff in H1. rewrite H1, IH by assumption.
    reflexivity.
Qed.

Lemma trim_len q : (length (trim_ahead q) <= length q)%nat.
Proof. induction q as [|b q IH]; [constructor|]. cbn [trim_ahead]. destruct (is_space b); cbn [length]; lia. Qed.

Lemma wstart_not_blank b : wstart b -> blank b -> False.
Proof.
  rewrite <- word_start_iff, <- is_space_iff. destruct b; vm_compute; congruence.
Qed.

Lemma sym_not_blank s : ~ blank (sym_char s).
Proof. rewrite <- is_space_iff. destruct s; vm_compute; congruence. Qed.

Lemma is_word_head w q b r : is_word w -> w ++ q = b :: r -> wstart b.
Proof. destruct w as [|c w]; [intros []|]. intros [H _] E. cbn in E. injection E as <- <-. exact H. Qed.

Lemma toks_blank b q ts : blank b -> toks (b :: q) ts <-> toks q ts.
Proof.
  intros B. split; [|constructor; assumption].
  intros H. inversion H; subst; try assumption.
  - exfalso. eapply wstart_not_blank; [|exact B]. eapply is_word_head; [|eassumption]. assumption.
  - elim (sym_not_blank s). assumption.
Qed.

Lemma toks_trim q ts : toks q ts <-> toks (trim_ahead q) ts.
Proof.
  induction q as [|b q IH]; [reflexivity|]. cbn [trim_ahead]. destruct (is_space b) eqn:E; [|reflexivity].
  apply is_space_iff in E. rewrite toks_blank by assumption. exact IH.
Qed.

(** a text that starts with a word *)
Lemma toks_word w q ts : is_word w -> match q with [] => True | b :: _ => ~ wbyte b end ->
  toks (w ++ q) ts <-> exists t ts', ts = t :: ts' /\ word_tok w t /\ toks q ts'.
Proof.
  intros W G. split.
  - intros H. remember (w ++ q) as u eqn:U. destruct H.
    + destruct w; [elim W|discriminate U].
    + exfalso. eapply wstart_not_blank; [|eassumption]. eapply is_word_head; [exact W|]. symmetry. exact U.
    + assert (X : scan_ident (w0 ++ q0) = (w0, q0)).
      { apply scan_ident_app; [|assumption]. destruct w0; [elim H|]. destruct H. constructor; [apply wstart_wbyte|]; assumption. }
      assert (Y : scan_ident (w ++ q) = (w, q)).
      { apply scan_ident_app; [|assumption]. destruct w; [elim W|]. destruct W. constructor; [apply wstart_wbyte|]; assumption. }
      rewrite U, Y in X. injection X as <- <-. eauto.
    + exfalso. assert (wstart (sym_char s)). { eapply is_word_head; [exact W|]. symmetry. exact U. }
      apply word_start_iff in H1. destruct (sym_char_kind s H) as (A & _). congruence.
  - intros (t' & ts' & -> & A & B). constructor; assumption.
Qed.

Lemma toks_sym b q ts : word_start b = false -> is_space b = false ->
  toks (b :: q) ts <-> exists s ts', sym_get b = Some s /\ ts = TSym s :: ts' /\ toks q ts'.
Proof.
  intros A B. split.
  - intros H. inversion H; subst.
    + apply is_space_iff in H2. congruence.
    + exfalso. assert (WS : wstart b) by (eapply is_word_head; eassumption). apply word_start_iff in WS. congruence.
    + exists s, ts0. rewrite sym_get_char. auto.
  - intros (s & ts' & S & -> & T). apply sym_get_some in S. subst b. constructor; [|exact T].
    intros ->. discriminate A.
Qed.

(* ------------------------------------------------------------------ *)
(** * Parameters *)

Section Params.
Variable utf8 : bytes -> bool.
Variable parse_f64 : bytes -> option N.
Notation scan_param := (scan_param utf8 parse_f64).
Notation reads := (reads utf8 parse_f64).
Notation params := (params utf8 parse_f64).
Notation lex_go := (lex_go utf8 parse_f64).
Notation lex := (lex utf8 parse_f64).

Lemma until_lf_iff p : forall s r, until_lf p = Some (s, r) <-> p = s ++ LF :: r /\ ~ In LF s.
Proof.
  induction p as [|b p IH]; intros s r; cbn [until_lf].
  - split; [discriminate|]. intros [H _]. destruct s; discriminate H.
  - destruct (beq b LF) eqn:E.
    + apply beq_eq in E. subst b. split.
      * intros H. injection H as <- <-. split; [reflexivity|intros []].
      * intros [H I]. destruct s as [|c s]; cbn in H; injection H.
        -- intros ->. reflexivity.
        -- intros _ <-. elim I. left. reflexivity.
    + assert (E' : b <> LF) by (intros X; apply beq_eq in X; congruence). clear E.
      split.
      * destruct (until_lf p) as [[a t]|] eqn:F; [|discriminate]. intros H. injection H as <- <-.
        destruct (proj1 (IH a t) eq_refl) as [-> I]. split; [reflexivity|]. intros [X|X]; [congruence|tauto].
      * intros [H I]. destruct s as [|c s]; cbn in H; injection H as H0 H1; [congruence|].
        subst c. assert (F : until_lf p = Some (s, r)).
        { apply IH. split; [exact H1|]. intros X. apply I. right. exact X. }
        rewrite F. reflexivity.
Qed.

Lemma lf_u64_iff p n r : lf_u64 p = SVal n r <->
  exists ds, p = ds ++ LF :: r /\ all_digits ds /\ n = horner 0 ds /\ n < two64.
Proof.
  split; [apply lf_u64_val_inv|]. intros (ds & -> & A & -> & B). apply lf_u64_val; assumption.
Qed.

Lemma sized_iff p b r : sized p = Some (b, r) <->
  exists ds, p = ds ++ LF :: b ++ r /\ all_digits ds /\ horner 0 ds = len b /\ len b < two64.
Proof.
  unfold sized. split.
  - destruct (lf_u64 p) as [n q| |] eqn:E; try discriminate. apply lf_u64_iff in E as (ds & -> & A & B & C).
    intros H. apply takeN_some in H as [-> H]. exists ds. repeat split; try assumption; congruence.
  - intros (ds & -> & A & B & C). rewrite lf_u64_val by (try assumption; congruence).
    rewrite B. apply takeN_app.
Qed.

(** ** signed integers *)

Definition sgn (neg : bool) (n : N) : Z := if neg then (- Z.of_N n)%Z else Z.of_N n.
Definition in_i64 (z : Z) : Prop := (-9223372036854775808 <= z <= 9223372036854775807)%Z.

Lemma i64_ok_iff z : i64_ok z = true <-> in_i64 z.
Proof. unfold i64_ok, in_i64. rewrite andb_true_iff, !Z.leb_le. reflexivity. Qed.

Lemma sgn_step (neg : bool) (n d : N) : (if neg then (sgn neg n * 10 - Z.of_N d) else (sgn neg n * 10 + Z.of_N d))%Z = sgn neg (n * 10 + d)%N.
Proof. destruct neg; cbn [sgn]; lia. Qed.

Lemma sgn_mono neg n m : n <= m -> in_i64 (sgn neg m) -> in_i64 (sgn neg n).
Proof. unfold in_i64. destruct neg; cbn [sgn]; lia. Qed.

Lemma i64_loop_done neg ds : forall n r, all_digits ds -> in_i64 (sgn neg (horner n ds)) ->
  i64_loop neg (ds ++ LF :: r) (sgn neg n) true = (true, sgn neg (horner n ds), LF :: r).
Proof.
  induction ds as [|b ds IH]; intros n r D H.
  - reflexivity.
  - inversion D; subst. destruct (digit_low4 _ H2) as (A & B & C).
    rewrite horner_cons in *. cbn [app i64_loop]. rewrite C, A, B. cbn [negb orb].
    pose proof (horner_mono (n * 10 + digit_val b) ds) as M.
    assert (I1 : i64_ok (sgn neg n * 10) = true).
    { apply i64_ok_iff. replace (sgn neg n * 10)%Z with (sgn neg (n * 10)) by (destruct neg; cbn [sgn]; lia).
      eapply sgn_mono; [|exact H]. lia. }
    rewrite I1. cbn [negb].
    rewrite sgn_step.
    assert (I2 : i64_ok (sgn neg (n * 10 + digit_val b)) = true).
    { apply i64_ok_iff. eapply sgn_mono; [|exact H]. lia. }
    rewrite I2. cbn [negb]. apply IH; assumption.
Qed.

Lemma i64_loop_inv neg rest : forall n okay v r, in_i64 (sgn neg n) -> i64_loop neg rest (sgn neg n) okay = (true, v, r) ->
  okay = true /\ exists ds, rest = ds ++ r /\ all_digits ds /\ v = sgn neg (horner n ds) /\ in_i64 v /\
    (r = [] \/ exists r', r = LF :: r').
Proof.
  induction rest as [|b rest IH]; intros n okay v r Hn H.
  - cbn in H. injection H as -> <- <-. split; [reflexivity|]. exists [].
    repeat split; [constructor|apply Hn|apply Hn|auto].
  - cbn [i64_loop] in H. destruct (beq b LF) eqn:E.
    + apply beq_eq in E. subst b. cbn [orb] in H. injection H as -> <- <-. split; [reflexivity|]. exists [].
      repeat split; [constructor|apply Hn|apply Hn|right; eauto].
    + destruct okay; cbn [orb negb] in H; [|discriminate H]. split; [reflexivity|].
      destruct (i64_ok (sgn neg n * 10)) eqn:I1; cbn [negb] in H; [|discriminate H].
      rewrite sgn_step in H.
      destruct (i64_ok (sgn neg (n * 10 + low4 b))) eqn:I2; cbn [negb] in H; [|discriminate H].
      apply i64_ok_iff in I2.
      apply IH in H as (D & ds & -> & X & Y & Z & W); [|exact I2].
      apply is_digit_iff in D. destruct (digit_low4 _ D) as (_ & B & _).
      exists (b :: ds). split; [reflexivity|]. split; [constructor; assumption|].
      rewrite horner_cons, <- B. auto.
Qed.

Lemma lf_i64_iff p z r : lf_i64 p = Some (z, r) <-> exists s, p = s ++ LF :: r /\ sint_text s z.
Proof.
  split.
  - unfold lf_i64. destruct p as [|c p]; [discriminate|].
    destruct (beq c x2d) eqn:E.
    + apply beq_eq in E. subst c. cbn [orb].
      destruct (i64_loop true p 0 true) as [[ok v] q] eqn:L. destruct ok; [|discriminate].
      change 0%Z with (sgn true 0) in L. apply i64_loop_inv in L as (_ & ds & -> & X & Y & Z & W);
        [|cbv; split; intros V; discriminate V].
      destruct q as [|b q]; [discriminate|]. destruct W as [W|(q' & W)]; [discriminate|].
      injection W as -> <-. rewrite beq_refl. intros H. injection H as <- <-.
      exists (x2d :: ds). split; [reflexivity|]. subst v. constructor; [assumption|].
      unfold in_i64 in Z. cbn [sgn] in Z. lia.
    + cbn [orb].
      destruct (i64_loop false (c :: p) 0 _) as [[ok v] q] eqn:L. destruct ok; [|discriminate].
      change 0%Z with (sgn false 0) in L. apply i64_loop_inv in L as (O & ds & EQ & X & Y & Z & W);
        [|cbv; split; intros V; discriminate V].
      destruct q as [|b q]; [discriminate|]. destruct W as [W|(q' & W)]; [discriminate|].
      injection W as -> <-. rewrite beq_refl. intros H. injection H as <- <-.
      exists ds. split; [exact EQ|]. subst v. constructor; [|assumption|].
      * rewrite andb_true_r in O. intros ->. cbn in EQ. injection EQ as -> _. discriminate O.
      * unfold in_i64 in Z. cbn [sgn] in Z. lia.
  - intros (s & -> & T). destruct T as [ds N D B|ds D B].
    + destruct ds as [|c ds]; [congruence|]. unfold lf_i64. cbn [app].
      assert (48 <= b2n c <= 57) by (inversion D; assumption).
      destruct (digit_low4 _ H) as (A1 & A2 & A3).
      replace (beq c x2d) with false.
      2:{ symmetry. destruct (beq c x2d) eqn:X; [|reflexivity]. apply beq_eq in X. subst c. cbv in H. destruct H. congruence. }
      rewrite A1. cbn [orb negb andb].
      pose proof (i64_loop_done false (c :: ds) 0 r D) as L. cbn [sgn app] in L. change (Z.of_N 0) with 0%Z in L.
      rewrite L; [|unfold in_i64; lia]. rewrite beq_refl. reflexivity.
    + unfold lf_i64. cbn [app]. change (beq x2d x2d) with true. cbn [orb].
      pose proof (i64_loop_done true ds 0 r D) as L. cbn [sgn] in L. change (- Z.of_N 0)%Z with 0%Z in L.
      rewrite L; [|unfold in_i64; lia]. rewrite beq_refl. reflexivity.
Qed.

Lemma two_app a b : two a b <-> (len (a ++ b) <? 2) = false.
Proof. unfold two. rewrite N.ltb_ge. reflexivity. Qed.

Lemma two_lf s b : two (s ++ [LF]) b <-> (len (s ++ LF :: b) <? 2) = false.
Proof. rewrite two_app, <- app_assoc. reflexivity. Qed.

Lemma b2n_lit b n : b2n b = n -> n < 256 -> b = n2b n.
Proof. intros <- _. symmetry. apply n2b_b2n. Qed.

Lemma sint_two s z r : sint_text s z -> (len (s ++ LF :: r) <? 2) = false.
Proof.
  intros T. apply N.ltb_ge. rewrite len_app, len_cons. destruct T as [ds N D B|ds D B].
  - destruct ds; [congruence|]. rewrite len_cons. lia.
  - rewrite len_cons. lia.
Qed.

Theorem scan_param_iff p t r : scan_param p = Some (t, r) <-> reads p t r.
Proof.
  split.
  - unfold LexModel.scan_param. destruct p as [|c p]; [discriminate|].
    assert (EC : c = n2b (b2n c)) by (symmetry; apply n2b_b2n).
    destruct (b2n c) as [|k].
    { intros H. injection H as <- <-. rewrite EC. constructor. }
    do 3 (try destruct k as [k|k|]); try discriminate;
      change (n2b 1) with x01 in EC; change (n2b 2) with x02 in EC; change (n2b 3) with x03 in EC;
      change (n2b 4) with x04 in EC; change (n2b 5) with x05 in EC; change (n2b 6) with x06 in EC;
      subst c; try (destruct (len p <? 2) eqn:L; [discriminate|]).
    + destruct (sized p) as [[b q]|] eqn:E; [|discriminate]. apply sized_iff in E as (ds & -> & A & B & C).
      intros H. injection H as <- <-. constructor; try assumption. apply two_lf. exact L.
    + destruct (lf_i64 p) as [[z q]|] eqn:E; [|discriminate]. apply lf_i64_iff in E as (s & -> & A).
      intros H. injection H as <- <-. constructor. exact A.
    + destruct (sized p) as [[b q]|] eqn:E; [|discriminate]. apply sized_iff in E as (ds & -> & A & B & C).
      destruct (utf8 b) eqn:U; [|discriminate].
      intros H. injection H as <- <-. constructor; try assumption. apply two_lf. exact L.
    + destruct (until_lf p) as [[s q]|] eqn:E; [|discriminate]. apply until_lf_iff in E as (-> & A).
      destruct (utf8 s) eqn:U; [|discriminate]. destruct (parse_f64 s) as [w|] eqn:F; [|discriminate].
      intros H. injection H as <- <-. constructor; try assumption. apply two_lf. exact L.
    + destruct (lf_u64 p) as [n q| |] eqn:E; try discriminate. apply lf_u64_iff in E as (ds & -> & A & -> & C).
      intros H. injection H as <- <-. constructor; try assumption. apply two_lf. exact L.
    + destruct p as [|nb p]; [discriminate|]. destruct nb; try discriminate;
        vm_compute; intros H; injection H as <- <-; constructor.
  - intros H. destruct H; cbn [LexModel.scan_param]; try reflexivity.
    + change (b2n x02) with 2. cbv iota. apply two_lf in H1. rewrite H1, lf_u64_val by assumption. reflexivity.
    + change (b2n x03) with 3. cbv iota. rewrite (sint_two _ _ _ H).
      replace (lf_i64 (s ++ LF :: rest)) with (Some (z, rest)); [reflexivity|].
      symmetry. apply lf_i64_iff. eauto.
    + change (b2n x04) with 4. cbv iota. apply two_lf in H2. rewrite H2.
      replace (until_lf (s ++ LF :: rest)) with (Some (s, rest)); [|symmetry; apply until_lf_iff; auto].
      rewrite H0, H1. reflexivity.
    + change (b2n x05) with 5. cbv iota. apply two_lf in H2. rewrite H2.
      replace (sized (ds ++ LF :: b ++ rest)) with (Some (b, rest)); [reflexivity|].
      symmetry. apply sized_iff. exists ds. auto.
    + change (b2n x06) with 6. cbv iota. apply two_lf in H3. rewrite H3.
      replace (sized (ds ++ LF :: b ++ rest)) with (Some (b, rest)); [rewrite H2; reflexivity|].
      symmetry. apply sized_iff. exists ds. auto.
Qed.

Lemma reads_nonempty p t r : reads p t r -> p <> [].
Proof. intros H. destruct H; discriminate. Qed.

Lemma reads_det p t r t' r' : reads p t r -> reads p t' r' -> t = t' /\ r = r'.
Proof. rewrite <- !scan_param_iff. intros A B. rewrite A in B. injection B. auto. Qed.

Lemma reads_lit p t r : reads p t r -> t = TKw (KMisc KmNull) \/ exists l, t = TLit l.
Proof. intros H. destruct H; eauto. Qed.

(* ------------------------------------------------------------------ *)
(** * The whole lexer *)

Lemma fill_nil ts : fill ts [] = ts.
Proof. destruct ts; reflexivity. Qed.

Lemma fill_cons_skip t ts vs : hole t = false -> fill (t :: ts) vs = t :: fill ts vs.
Proof. intros H. destruct vs; cbn [fill]; [rewrite fill_nil; reflexivity|rewrite H; reflexivity]. Qed.

Lemma holes_skip t ts : hole t = false -> holes (t :: ts) = holes ts.
Proof. intros H. unfold holes. cbn [filter]. rewrite H. reflexivity. Qed.

Lemma holes_hole ts : holes (TSym SQuestion :: ts) = S (holes ts).
Proof. reflexivity. Qed.

Definition accepts (q p : bytes) (ts : list token) : Prop :=
  exists ts0 vs, toks q ts0 /\ params p (holes ts0) vs /\ ts = fill ts0 vs.

Lemma lex_cons_ok t r ts : lex_cons t r = LexOk ts <-> exists ts', ts = t :: ts' /\ r = LexOk ts'.
Proof.
  destruct r as [l| |]; cbn [lex_cons]; split; try discriminate; try (intros (? & _ & H); discriminate H).
  - intros H. injection H as <-. eauto.
  - intros (ts' & -> & H). injection H as ->. reflexivity.
Qed.

Lemma params_nil n vs : params [] n vs -> vs = [].
Proof. intros H. inversion H; subst; try reflexivity. exfalso. eapply reads_nonempty; eauto. Qed.

Lemma params_zero p vs : params p 0 vs -> vs = [].
Proof. intros H. inversion H; reflexivity. Qed.

Lemma lex_go_iff fuel : forall q p ts, (length q < fuel)%nat -> lex_go fuel q p = LexOk ts <-> accepts q p ts.
Proof.
  induction fuel as [|f IH]; intros q p ts L; [lia|].
  destruct q as [|b q].
  { cbn [LexModel.lex_go]. split.
    - intros H. injection H as <-. exists [], []. repeat constructor.
    - intros (ts0 & vs & A & B & ->). inversion A; subst; [reflexivity|].
      destruct w; [elim H0|discriminate H]. }
  cbn [LexModel.lex_go]. destruct (word_start b) eqn:W.
  { destruct (scan_ident (b :: q)) as [w r] eqn:S. apply scan_ident_spec in S as (E & F & G).
    apply word_start_iff in W.
    assert (IW : is_word w).
    { destruct w as [|c w].
      - cbn in E. subst r. elim G. apply wstart_wbyte. exact W.
      - cbn in E. injection E as <- _. split; [exact W|]. inversion F; assumption. }
    rewrite E. clear W F.
    assert (LR : (length r < f)%nat).
    { destruct w as [|c w]; [elim IW|]. cbn [app] in E. injection E as _ ->. cbn [length] in L. rewrite app_length in L. lia. }
    rewrite lex_cons_ok. unfold accepts. split.
    - intros (ts' & -> & H). apply IH in H as (ts0 & vs & A & B & ->); [|exact LR].
      exists (word_token w :: ts0), vs.
      assert (WT : word_tok w (word_token w)) by (apply word_token_iff; reflexivity).
      pose proof (word_tok_not_hole _ _ WT) as H.
      repeat split; [constructor; assumption|rewrite holes_skip by exact H; exact B|symmetry; apply fill_cons_skip; exact H].
    - intros (ts0 & vs & A & B & ->). apply toks_word in A as (t & ts' & -> & WT & T); [|assumption|assumption].
      pose proof (word_tok_not_hole _ _ WT) as H.
      rewrite holes_skip in B by exact H. rewrite fill_cons_skip by exact H.
      apply word_token_iff in WT. subst t. exists (fill ts' vs). split; [reflexivity|].
      apply IH; [exact LR|]. exists ts', vs. auto. }
  cbn [length] in L.
  destruct (beq b x3f && _) eqn:Q.
  { apply andb_true_iff in Q as [Q P]. apply beq_eq in Q. subst b.
    destruct p as [|c p]; [discriminate P|]. clear P.
    assert (T : forall ts0, toks (x3f :: q) ts0 <-> exists ts', ts0 = TSym SQuestion :: ts' /\ toks q ts').
    { intros ts0. rewrite toks_sym by reflexivity. change (sym_get x3f) with (Some SQuestion). split.
      - intros (s & ts' & E & -> & X). injection E as <-. eauto.
      - intros (ts' & -> & X). eauto. }
    destruct (scan_param (c :: p)) as [[v p']|] eqn:S.
    - apply scan_param_iff in S. rewrite lex_cons_ok. unfold accepts. split.
      + intros (ts' & -> & H). apply IH in H as (ts0 & vs & A & B & ->); [|lia].
        exists (TSym SQuestion :: ts0), (v :: vs). repeat split; [apply T; eauto|].
        rewrite holes_hole. econstructor; eauto.
      + intros (ts0 & vs & A & B & ->). apply T in A as (ts' & -> & A). rewrite holes_hole in B.
        inversion B; subst. destruct (reads_det _ _ _ _ _ S H0) as [<- <-].
        cbn [fill hole]. exists (fill ts' vs0). split; [reflexivity|]. apply IH; [lia|]. exists ts', vs0. auto.
    - split; [discriminate|]. intros (ts0 & vs & A & B & ->). apply T in A as (ts' & -> & A).
      rewrite holes_hole in B. inversion B; subst. apply scan_param_iff in H0. congruence. }
  destruct (is_space b) eqn:SP.
  { assert (LT : (length (trim_ahead (b :: q)) < f)%nat).
    { cbn [trim_ahead]. rewrite SP. pose proof (trim_len q). lia. }
    rewrite IH by exact LT. unfold accepts. split; intros (ts0 & vs & A & B & C); exists ts0, vs;
      (split; [|split; assumption]); apply (toks_trim (b :: q)); exact A. }
  destruct (sym_get b) as [s|] eqn:S.
  - rewrite lex_cons_ok. unfold accepts. split.
    + intros (ts' & -> & H). apply IH in H as (ts0 & vs & A & B & ->); [|lia].
      exists (TSym s :: ts0), vs.
      split; [apply toks_sym; eauto|].
      destruct (hole (TSym s)) eqn:HO.
      * destruct s; try discriminate HO. apply sym_get_some in S. subst b.
        change (beq (sym_char SQuestion) x3f) with true in Q. cbn [andb] in Q. destruct p; [|discriminate Q].
        pose proof (params_nil _ _ B) as ->. rewrite !fill_nil. repeat split. constructor.
      * rewrite holes_skip by exact HO. split; [exact B|]. symmetry. apply fill_cons_skip. exact HO.
    + intros (ts0 & vs & A & B & ->). apply toks_sym in A as (s' & ts' & E & -> & A); try assumption.
      rewrite S in E. injection E as <-.
      destruct (hole (TSym s)) eqn:HO.
      * destruct s; try discriminate HO. apply sym_get_some in S. subst b.
        change (beq (sym_char SQuestion) x3f) with true in Q. cbn [andb] in Q. destruct p; [|discriminate Q].
        pose proof (params_nil _ _ B) as ->. rewrite fill_nil. exists ts'. split; [reflexivity|].
        apply IH; [lia|]. exists ts', []. repeat split; [exact A|constructor|symmetry; apply fill_nil].
      * rewrite holes_skip in B by exact HO. rewrite fill_cons_skip by exact HO. eexists. split; [reflexivity|].
        apply IH; [lia|]. exists ts', vs. auto.
  - split; [discriminate|]. intros (ts0 & vs & A & B & ->). apply toks_sym in A as (s' & ts' & E & -> & A); try assumption.
    congruence.
Qed.

Lemma lex_go_fuel fuel : forall q p, (length q < fuel)%nat -> lex_go fuel q p <> LexFuel.
Proof.
  induction fuel as [|f IH]; intros q p L; [lia|]. destruct q as [|b q]; [discriminate|].
  assert (C : forall t r, r <> LexFuel -> lex_cons t r <> LexFuel) by (intros t [| |] H; cbn; congruence).
  cbn [LexModel.lex_go]. cbn [length] in L. destruct (word_start b) eqn:W.
  - destruct (scan_ident (b :: q)) as [w r] eqn:S. apply C, IH.
    pose proof S as S'. apply scan_ident_spec in S' as (E & F & G).
    destruct w as [|c w].
    + cbn in E. subst r. elim G. apply wstart_wbyte, word_start_iff. exact W.
    + injection E as _ ->. rewrite app_length in L. lia.
  - destruct (beq b x3f && _).
    + destruct (scan_param p) as [[t p']|]; [|discriminate]. apply C, IH. lia.
    + destruct (is_space b) eqn:SP.
      * apply IH. cbn [trim_ahead]. rewrite SP. pose proof (trim_len q). lia.
      * destruct (sym_get b); [|discriminate]. apply C, IH. lia.
Qed.

Theorem lex_iff q p ts : lex q p = LexOk ts <-> accepts q p ts.
Proof. apply lex_go_iff. lia. Qed.

Theorem lex_no_fuel q p : lex q p <> LexFuel.
Proof. apply lex_go_fuel. lia. Qed.

(** the query text alone *)
Theorem lex_text q ts : lex q [] = LexOk ts <-> toks q ts.
Proof.
  rewrite lex_iff. unfold accepts. split.
  - intros (ts0 & vs & A & B & ->). apply params_nil in B. subst vs. rewrite fill_nil. exact A.
  - intros A. exists ts, []. repeat split; [exact A|constructor|symmetry; apply fill_nil].
Qed.

Lemma toks_det q ts ts' : toks q ts -> toks q ts' -> ts = ts'.
Proof. rewrite <- !lex_text. congruence. Qed.

(* ------------------------------------------------------------------ *)
(** * Canonical parameters *)

Lemma z2w_carries z : (-9223372036854775808 <= z < 9223372036854775808)%Z ->
  let w := Z.to_N (z mod 18446744073709551616) in
  w < two64 /\ z = (if (w <? 9223372036854775808)%N then Z.of_N w else Z.of_N w - 18446744073709551616)%Z.
Proof.
  intros R. cbv zeta.
  assert (M : (0 <= z mod 18446744073709551616 < 18446744073709551616)%Z) by (apply Z.mod_pos_bound; lia).
  split; [unfold two64; lia|].
  destruct (Z_lt_dec z 0) as [Hz|Hz].
  - assert (E : (z mod 18446744073709551616 = z + 18446744073709551616)%Z).
    { symmetry. apply Z.mod_unique with (q := (-1)%Z); lia. }
    rewrite E. destruct (N.ltb_spec (Z.to_N (z + 18446744073709551616)) 9223372036854775808); lia.
  - rewrite Z.mod_small by lia. destruct (N.ltb_spec (Z.to_N z) 9223372036854775808); lia.
Qed.

Lemma encodes_reads v e rest : pval_ok utf8 parse_f64 v -> encodes v e ->
  exists t, reads (e ++ rest) t rest /\ carries parse_f64 v t.
Proof.
  intros O H. destruct H; cbn [pval_ok] in O.
  - eexists. split; [constructor|reflexivity].
  - eexists. split; [constructor|reflexivity].
  - eexists. split; [constructor|reflexivity].
  - destruct H as (A & B & C & D). subst n. eexists. rewrite <- app_comm_cons, <- app_assoc. cbn [app].
    split; [constructor; try assumption|reflexivity].
    unfold two. destruct s; [congruence|]. rewrite !len_app, !len_cons. lia.
  - assert (T : sint_text s z).
    { unfold int_text in H. destruct (Z.ltb_spec z 0).
      - destruct H as (d & -> & A & B & C & D).
        replace z with (- Z.of_N (horner 0 d))%Z by lia. constructor; [assumption|]. lia.
      - destruct H as (A & B & C & D). replace z with (Z.of_N (horner 0 s)) by lia. constructor; [assumption|assumption|]. lia. }
    eexists. rewrite <- app_comm_cons, <- app_assoc. cbn [app]. split; [apply RdSInt; exact T|].
    eexists. split; [reflexivity|]. apply z2w_carries. exact O.
  - destruct O as (A & B & C & D). destruct (parse_f64 s) as [w|] eqn:E; [|congruence].
    exists (TLit (LFloat w)). rewrite <- app_comm_cons, <- app_assoc. cbn [app]. split; [constructor; try assumption|eexists; eauto].
    unfold two. destruct s; [congruence|]. rewrite !len_app, !len_cons. lia.
  - destruct H as (A & B & C & D). eexists. rewrite <- app_comm_cons, <- app_assoc, <- app_comm_cons.
    split; [constructor; try assumption|reflexivity].
    unfold two. destruct s; [congruence|]. rewrite !len_app, !len_cons. lia.
  - destruct H as (A & B & C & D). destruct O as [O1 O2]. eexists. rewrite <- app_comm_cons, <- app_assoc, <- app_comm_cons.
    split; [constructor; try assumption|reflexivity].
    unfold two. destruct s; [congruence|]. rewrite !len_app, !len_cons. lia.
Qed.

(** canonical values fill as many placeholders; with all filled, what follows is ignored *)
Lemma encodes_params vs es : Forall2 (fun v e => pval_ok utf8 parse_f64 v /\ encodes v e) vs es ->
  forall n tail, (length vs <= n)%nat -> (tail = [] \/ length vs = n) ->
  exists ts, params (concat es ++ tail) n ts /\ Forall2 (carries parse_f64) vs ts.
Proof.
  intros F. induction F as [|v e vs es [O E] F IH]; intros n tail L T.
  - exists []. split; [|constructor]. cbn [concat app]. destruct T as [->|T]; [constructor|]. cbn in T. subst n. constructor.
  - cbn [length] in *. destruct n as [|n]; [lia|].
    destruct (IH n tail) as (ts & A & B); [lia|destruct T; [left|right]; [assumption|lia]|].
    destruct (encodes_reads v e (concat es ++ tail) O E) as (t & R & C).
    exists (t :: ts). split; [|constructor; assumption]. cbn [concat]. rewrite <- app_assoc. econstructor; eauto.
Qed.

End Params.
