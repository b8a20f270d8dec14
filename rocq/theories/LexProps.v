(** The lexer: C34 (parameters cannot change a query), C35 (parameter values), C36 (keywords). *)
From Coq Require Import Strings.String List NArith ZArith Bool Lia.
From Verif Require Import Bytes NumModel NumProofs RowModel LexModel LexSpec LexProofs.
Import ListNotations.
Local Open Scope N_scope.

Section Props.
Variable utf8 : bytes -> bool.
Variable parse_f64 : bytes -> option N.
Notation lex := (lex utf8 parse_f64).
Notation reads := (reads utf8 parse_f64).
Notation params := (params utf8 parse_f64).

(** C34. A query without parameters is read exactly as [toks] says. *)
Theorem C34_text q ts : lex q [] = LexOk ts <-> toks q ts.
Proof. apply lex_text. Qed.

(** C34. With parameters: the text's own tokens, placeholders filled in order with the values read
    from the parameter block; and nothing else is accepted. *)
Theorem C34_exact q p ts : lex q p = LexOk ts <->
  exists ts0 vs, toks q ts0 /\ params p (holes ts0) vs /\ ts = fill ts0 vs.
Proof. apply lex_iff. Qed.

Lemma params_lit p n vs : params p n vs -> Forall (fun t => t = TKw (KMisc KmNull) \/ exists l, t = TLit l) vs.
Proof.
  intros H. induction H; constructor; [|assumption]. eapply reads_lit; eassumption.
Qed.

Lemma fill_pointwise ts : forall vs, Forall (fun t => t = TKw (KMisc KmNull) \/ exists l, t = TLit l) vs ->
  Forall2 (fun t0 t => t = t0 \/ (t0 = TSym SQuestion /\ (t = TKw (KMisc KmNull) \/ exists l, t = TLit l))) ts (fill ts vs).
Proof.
  induction ts as [|t ts IH]; intros vs F; [constructor|].
  destruct vs as [|v vs].
  - rewrite fill_nil. clear. assert (R : forall l : list token, Forall2 (fun t0 t => t = t0 \/
      (t0 = TSym SQuestion /\ (t = TKw (KMisc KmNull) \/ exists l, t = TLit l))) l l).
    { induction l; constructor; auto. }
    apply R.
  - cbn [fill]. destruct (hole t) eqn:E.
    + destruct t as [[]| | |]; try discriminate E. inversion F; subst. constructor; auto.
    + constructor; [auto|]. apply IH. exact F.
Qed.

(** C34, token by token: whatever the parameter bytes are, an accepted query has the tokens of its
    own text, one for one, except that a [?] may have become one literal or NULL. *)
Theorem C34_tokens q p ts : lex q p = LexOk ts ->
  exists ts0, lex q [] = LexOk ts0 /\
    Forall2 (fun t0 t => t = t0 \/ (t0 = TSym SQuestion /\ (t = TKw (KMisc KmNull) \/ exists l, t = TLit l))) ts0 ts.
Proof.
  intros H. apply C34_exact in H as (ts0 & vs & A & B & ->). exists ts0. split; [apply lex_text; exact A|].
  apply fill_pointwise. eapply params_lit; eassumption.
Qed.

(** C34. A text that is refused on its own is refused with every parameter block. *)
Theorem C34_refused q p ts : lex q p = LexOk ts -> exists ts0, toks q ts0.
Proof. intros H. apply C34_exact in H as (ts0 & _ & A & _). eauto. Qed.

(** C35. Values sent in canonical form are read as literals with exactly these values, in order;
    placeholders without a value stay. *)
Theorem C35_values_partial q ts0 vs es : toks q ts0 ->
  Forall2 (fun v e => pval_ok utf8 parse_f64 v /\ encodes v e) vs es -> (length vs <= holes ts0)%nat ->
  exists ts, lex q (concat es) = LexOk (fill ts0 ts) /\ Forall2 (carries parse_f64) vs ts.
Proof.
  intros T F L. destruct (encodes_params utf8 parse_f64 vs es F (holes ts0) [] L (or_introl eq_refl)) as (ts & P & C).
  rewrite app_nil_r in P. exists ts. split; [|exact C]. apply C34_exact. eauto.
Qed.

(** C35. When every placeholder has its value, whatever follows in the block is ignored. *)
Theorem C35_leftover q ts0 vs es tail : toks q ts0 ->
  Forall2 (fun v e => pval_ok utf8 parse_f64 v /\ encodes v e) vs es -> length vs = holes ts0 ->
  exists ts, lex q (concat es ++ tail) = LexOk (fill ts0 ts) /\ Forall2 (carries parse_f64) vs ts.
Proof.
  intros T F L. destruct (encodes_params utf8 parse_f64 vs es F (holes ts0) tail) as (ts & P & C);
    [rewrite L; constructor|right; exact L|].
  exists ts. split; [|exact C]. apply C34_exact. eauto.
Qed.

(** C35, exactly what is accepted for one placeholder, in terms of the wire format. *)
Theorem C35_exact_partial p t : p <> [] ->
  lex [x3f] p = LexOk [t] <-> exists rest, reads p t rest.
Proof.
  intros NE. rewrite C34_exact.
  assert (T : forall ts, toks [x3f] ts <-> ts = [TSym SQuestion]).
  { intros ts. split.
    - intros H. eapply toks_det; [exact utf8|exact parse_f64|exact H|]. apply (TsSym SQuestion); [discriminate|constructor].
    - intros ->. apply (TsSym SQuestion); [discriminate|constructor]. }
  split.
  - intros (ts0 & vs & A & B & C). apply T in A. subst ts0. change (holes [TSym SQuestion]) with 1%nat in B.
    inversion B; subst; [congruence|]. inversion H0; subst; cbn in C; injection C as ->; eauto.
  - intros (rest & R). exists [TSym SQuestion], [t]. split; [apply T; reflexivity|].
    split; [econstructor; [exact R|constructor]|reflexivity].
Qed.

(** C35. Unsigned integer text that is not all digits, or is 2^64 or more, is refused. *)
Theorem C35_uint_refused s p ts : ~ (all_digits s /\ horner 0 s < two64) -> ~ In LF s ->
  lex [x3f] (x02 :: s ++ LF :: p) <> LexOk ts.
Proof.
  intros B NL H. apply C34_exact in H as (ts0 & vs & A & C & ->).
  assert (ts0 = [TSym SQuestion]) as ->.
  { eapply toks_det; [exact utf8|exact parse_f64|exact A|]. apply (TsSym SQuestion); [discriminate|constructor]. }
  change (holes [TSym SQuestion]) with 1%nat in C. inversion C as [| |p0 v p' n vs' R P]; subst.
  inversion R as [| | |ds rest D V T E F| | | |]; subst.
  assert (X : ds = s); [|subst ds; tauto].
  assert (N1 : ~ In LF ds).
  { intros I. unfold all_digits in D. rewrite Forall_forall in D. specialize (D _ I). cbv in D. destruct D. congruence. }
  clear - E NL N1. revert s NL E. induction ds as [|b ds IH]; intros [|c s] NL H; cbn in H.
  - reflexivity.
  - injection H as E1 E2. elim NL. left. congruence.
  - injection H as E1 E2. elim N1. left. congruence.
  - injection H as E1 E2. f_equal; [congruence|]. apply IH; [|intros X; apply NL; right; exact X|exact E2].
    intros X. apply N1. right. exact X.
Qed.

(** the same for signed integers: anything but an optional minus sign and digits, or a number
    outside the 64-bit range, is refused. (A minus sign without digits is not: see below.) *)
Theorem C35_sint_refused s p ts : (forall z, ~ sint_text s z) -> ~ In LF s ->
  lex [x3f] (x03 :: s ++ LF :: p) <> LexOk ts.
Proof.
  intros B NL H. apply C34_exact in H as (ts0 & vs & A & C & ->).
  assert (ts0 = [TSym SQuestion]) as ->.
  { eapply toks_det; [exact utf8|exact parse_f64|exact A|]. apply (TsSym SQuestion); [discriminate|constructor]. }
  change (holes [TSym SQuestion]) with 1%nat in C. inversion C as [| |p0 v p' n vs' R P]; subst.
  inversion R as [| | | |ds z rest D E F| | |]; subst.
  assert (X : ds = s); [|subst ds; eapply B; eassumption].
  assert (DD : forall d, all_digits d -> ~ In LF d).
  { intros d DD I. unfold all_digits in DD. rewrite Forall_forall in DD. specialize (DD _ I). cbv in DD. destruct DD. congruence. }
  assert (N1 : ~ In LF ds).
  { destruct D as [d _ D _|d D _]; [apply DD; exact D|]. intros [X|X]; [discriminate X|]. eapply DD; eassumption. }
  clear - E NL N1. revert s NL E. induction ds as [|b ds IH]; intros [|c s] NL H; cbn in H.
  - reflexivity.
  - injection H as E1 E2. elim NL. left. congruence.
  - injection H as E1 E2. elim N1. left. congruence.
  - injection H as E1 E2. f_equal; [congruence|]. apply IH; [|intros X; apply NL; right; exact X|exact E2].
    intros X. apply N1. right. exact X.
Qed.

(** C36. A word is a keyword exactly when it is, letter case aside, a reserved word; the two truth
    values are literals; every other word is an identifier with exactly its own bytes. *)
Theorem C36_keyword w k : is_word w -> lex w [] = LexOk [TKw k] <-> map low w = spelling k.
Proof.
  intros W. rewrite C34_text. split.
  - intros H. rewrite <- (app_nil_r w) in H. apply toks_word in H as (t & ts & E & T & _); [|exact W|exact I].
    injection E as <- _. inversion T; subst. assumption.
  - intros H. rewrite <- (app_nil_r w). constructor; [exact W|exact I|constructor; exact H|constructor].
Qed.

Theorem C36_identifier w : is_word w ->
  lex w [] = LexOk [TId w] <->
  (forall k, map low w <> spelling k) /\ map low w <> bstr "true"%string /\ map low w <> bstr "false"%string.
Proof.
  intros W. rewrite C34_text. split.
  - intros H. rewrite <- (app_nil_r w) in H. apply toks_word in H as (t & ts & E & T & _); [|exact W|exact I].
    injection E as <- _. inversion T; subst. auto.
  - intros (A & B & C). rewrite <- (app_nil_r w) at 1. constructor; [exact W|exact I|constructor; assumption|constructor].
Qed.

Theorem C36_total w : is_word w -> exists t, lex w [] = LexOk [t] /\ word_tok w t.
Proof.
  intros W. exists (word_token w).
  assert (T : word_tok w (word_token w)) by (apply word_token_iff; reflexivity).
  split; [|exact T]. apply C34_text. rewrite <- (app_nil_r w) at 1. constructor; [exact W|exact I|exact T|constructor].
Qed.

End Props.

(** C35 is false as stated: a lone minus sign is read as the integer 0, and so is an empty unsigned
    integer followed by another parameter. *)
Theorem C35_malformed_refuted : exists p p' ts ts',
  p = x03 :: x2d :: [LF] /\ lex (fun _ => true) (fun _ => None) [x3f] p = LexOk ts /\ ts = [TLit (LSInt 0)] /\
  p' = [x02; LF; x00] /\ lex (fun _ => true) (fun _ => None) [x3f; x3f] p' = LexOk ts' /\
  ts' = [TLit (LUInt 0); TKw (KMisc KmNull)].
Proof.
  exists (x03 :: x2d :: [LF]), [x02; LF; x00], [TLit (LSInt 0)], [TLit (LUInt 0); TKw (KMisc KmNull)].
  repeat match goal with |- _ /\ _ => split end; vm_compute; reflexivity.
Qed.

(* ------------------------------------------------------------------ *)
(** * Examples: the hypotheses are met by ordinary queries *)

(** "select * from s.m where k = ?" with a string parameter that looks like a query *)
Definition ex_q : bytes := bstr "SELECT * from s.m Where k = ?"%string.
Definition ex_inj : bytes := bstr "1 or drop model s.m"%string.
Definition ex_p : bytes := x06 :: bstr "19"%string ++ LF :: ex_inj.
Definition ex_ts : list token :=
  [TKw (KStmt KsSelect); TSym SMul; TKw (KMisc KmFrom); TId (bstr "s"%string); TSym SPeriod; TId (bstr "m"%string);
   TKw (KMisc KmWhere); TId (bstr "k"%string); TSym SAssign].

Example ex_lex : lex (fun _ => true) (fun _ => None) ex_q ex_p = LexOk (ex_ts ++ [TLit (LStr ex_inj)]).
Proof. vm_compute. reflexivity. Qed.

Example ex_text : toks ex_q (ex_ts ++ [TSym SQuestion]).
Proof. apply (lex_text (fun _ => true) (fun _ => None)). vm_compute. reflexivity. Qed.

Example ex_values :
  Forall2 (fun v e => pval_ok (fun _ => true) (fun _ => None) v /\ encodes v e)
    [PStr ex_inj; PSInt (-5); PNull] [ex_p; x03 :: bstr "-5"%string ++ [LF]; [x00]].
Proof.
  assert (D : forall n s, forallb is_digit s = true -> s <> [] -> horner 0 s = n -> hd x00 s <> x30 -> dec_text n s).
  { intros n s A B C E. split; [exact B|]. split; [|split; [exact C|]].
    - apply Forall_forall. intros b I. rewrite forallb_forall in A. apply is_digit_iff. auto.
    - destruct s; [congruence|]. cbn in E |- *. intros X. injection X as ->. congruence. }
  constructor; [split; [split; vm_compute; reflexivity|apply EnStr]|constructor; [split|constructor; [split|constructor]]].
  - apply D; vm_compute; [reflexivity|discriminate|reflexivity|discriminate].
  - cbn [pval_ok]. lia.
  - apply EnSInt. exists (bstr "5"%string). split; [reflexivity|].
    apply D; vm_compute; [reflexivity|discriminate|reflexivity|discriminate].
  - exact I.
  - constructor.
Qed.

(** too few values: the last placeholder stays; too many: the rest is ignored *)
Example ex_few : lex (fun _ => true) (fun _ => None) (bstr "? ?"%string) [x01; x01] = LexOk [TLit (LBool true); TSym SQuestion].
Proof. vm_compute. reflexivity. Qed.
Example ex_many : lex (fun _ => true) (fun _ => None) (bstr "?"%string) [x01; x01; xff; xff] = LexOk [TLit (LBool true)].
Proof. vm_compute. reflexivity. Qed.

(** refusals *)
Example ex_refuse_range : lex (fun _ => true) (fun _ => None) [x3f] (x02 :: bstr "18446744073709551616"%string ++ [LF]) = LexErr LexInput.
Proof. vm_compute. reflexivity. Qed.
Example ex_accept_max : lex (fun _ => true) (fun _ => None) [x3f] (x02 :: bstr "18446744073709551615"%string ++ [LF]) = LexOk [TLit (LUInt 18446744073709551615)].
Proof. vm_compute. reflexivity. Qed.
Example ex_accept_min : lex (fun _ => true) (fun _ => None) [x3f] (x03 :: bstr "-9223372036854775808"%string ++ [LF]) = LexOk [TLit (LSInt 9223372036854775808)].
Proof. vm_compute. reflexivity. Qed.
Example ex_refuse_sint : lex (fun _ => true) (fun _ => None) [x3f] (x03 :: bstr "9223372036854775808"%string ++ [LF]) = LexErr LexInput.
Proof. vm_compute. reflexivity. Qed.

(** words: reserved in any letter case, almost reserved, truth values *)
Example ex_words : lex (fun _ => true) (fun _ => None) (bstr "TrAnSaCtIoN transactions tRUE _select by b"%string) [] =
  LexOk [TKw (KMisc KmTransaction); TId (bstr "transactions"%string); TLit (LBool true); TId (bstr "_select"%string);
         TKw (KMisc KmBy); TId (bstr "b"%string)].
Proof. vm_compute. reflexivity. Qed.
Example ex_is_word : is_word (bstr "_sEl3ct"%string) /\ is_word (bstr "SELECT"%string).
Proof.
  assert (W : forall w, match w with [] => false | b :: r => word_start b && forallb word_byte r end = true -> is_word w).
  { intros [|b r] H; [discriminate|]. apply andb_true_iff in H as [A B]. split; [apply word_start_iff; exact A|].
    apply Forall_forall. intros c I. rewrite forallb_forall in B. apply word_byte_iff. auto. }
  split; apply W; vm_compute; reflexivity.
Qed.

Print Assumptions C34_text.
Print Assumptions C34_exact.
Print Assumptions C34_tokens.
Print Assumptions C34_refused.
Print Assumptions C35_values_partial.
Print Assumptions C35_leftover.
Print Assumptions C35_exact_partial.
Print Assumptions C35_uint_refused.
Print Assumptions C35_sint_refused.
Print Assumptions C35_malformed_refuted.
Print Assumptions C36_keyword.
Print Assumptions C36_identifier.
Print Assumptions C36_total.
