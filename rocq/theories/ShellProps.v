(** The interactive shell: C85 (what is typed arrives), C86 (no crash). *)
From Coq Require Import Strings.String List NArith ZArith Bool Lia.
From Verif Require Import Bytes NumModel NumProofs RowModel LexModel LexSpec LexProofs LexProps Utf8 ShellModel ShellSpec ShellProofs.
Import ListNotations.
Local Open Scope N_scope.

Section Props.
Variable parse_f64 : bytes -> option N.
Variable fmt : N -> bytes.

(** C85, the part that works: words, symbols other than the minus sign, unsigned integers, floats not
    followed by a space and strings without backslashes arrive as typed. Missing: everything else, see
    [C85_exact]. *)
Theorem C85_sent_partial line ts : fmt_ok parse_f64 fmt -> len line < two64 ->
  typed parse_f64 false line [] ts -> sent parse_f64 fmt (parameterize parse_f64 line) ts.
Proof. intros F L T. eapply arrives_sent; eauto. apply typed_arrives. exact T. Qed.

(** C85. What arrives when the line has binary literals and backslashes as well: a binary literal gets
    its closing accent, a string keeps its backslashes. *)
Theorem C85_arrives line ts ts' : fmt_ok parse_f64 fmt -> len line < two64 ->
  arrives parse_f64 line [] ts ts' -> sent parse_f64 fmt (parameterize parse_f64 line) ts'.
Proof. apply arrives_sent. Qed.

(** C85. Exactly these lines of the language arrive as typed; every other is refused or arrives
    changed. (No text with a space is a number.) *)
Theorem C85_exact line ts : fmt_ok parse_f64 fmt -> (forall s w, parse_f64 s = Some w -> ~ In x20 s) -> len line < two64 ->
  typed parse_f64 true line [] ts ->
  (sent parse_f64 fmt (parameterize parse_f64 line) ts <-> typed parse_f64 false line [] ts) /\
  ((exists f, parameterize parse_f64 line = ShErr f) \/ exists ts', arrives parse_f64 line [] ts ts' /\ sent parse_f64 fmt (parameterize parse_f64 line) ts').
Proof.
  intros F NS L T.
  assert (D : (exists f, parameterize parse_f64 line = ShErr f) \/ exists ts', arrives parse_f64 line [] ts ts' /\ sent parse_f64 fmt (parameterize parse_f64 line) ts').
  { destruct (typed_or_refused _ _ _ _ NS T) as [(ts' & A)|(f & A)].
    - right. exists ts'. split; [exact A|]. eapply arrives_sent; eauto.
    - left. exists f. unfold parameterize. rewrite A by lia. reflexivity. }
  split; [|exact D]. split; [|intros W; apply C85_sent_partial; assumption]. intros S.
  destruct D as [(f & E)|(ts' & A & S')].
  - destruct S as (k & q & ps & E' & _). congruence.
  - eapply arrives_typed; [exact A|]. eapply sent_det; eassumption.
Qed.

(** C85. A minus sign is refused wherever it stands: no negative number can be typed, and no [-=]. *)
Theorem C85_minus_refused line r ts : typed parse_f64 false line (x2d :: r) ts -> parameterize parse_f64 line = ShErr FSInt.
Proof.
  intros T. apply typed_arrives, loop_arrives in T as (query & items & ts0 & vs & L & _). unfold parameterize.
  destruct (L (S (List.length line)) (le_n _)) as ([|fuel'] & L' & ->); [lia|]. reflexivity.
Qed.

(** C85. Of any line that is sent, of the language or not: no parameter is a signed integer, and no minus sign is in the query. *)
Theorem C85_never_negative line k query ps : parameterize parse_f64 line = ShOk k query ps -> (forall z, ~ In (ISInt z) ps) /\ ~ In x2d query.
Proof.
  assert (RU : forall q pre v i t, read_uint parse_f64 pre v q = inl (i, t) -> forall z, i <> ISInt z).
  { induction q as [|b q IH]; intros pre v i t E z; cbn [read_uint] in E; [injection E as <- <-; discriminate|]. cbv zeta in E. destruct (is_digit b).
    - destruct (v * 10 + low4 b <? two64); [|discriminate E]. eapply IH. exact E.
    - destruct (beq b x2e).
      + unfold read_float in E. destruct (until_escape q) as [a u]. destruct (utf8_ok _); [|discriminate E]. destruct (parse_f64 _); [|discriminate E]. injection E as <- <-. discriminate.
      + destruct (beq b x20 || beq b x09 || is_punct b); [|discriminate E]. injection E as <- <-. discriminate. }
  assert (L : forall fuel q query ps, sh_loop parse_f64 fuel q = inl (query, ps) -> (forall z, ~ In (ISInt z) ps) /\ ~ In x2d query).
  { clear - RU. induction fuel as [|fuel IH]; intros q query ps E; [discriminate E|]. destruct q as [|b q]; [injection E as <- <-; split; [intros z []|intros []]|].
    assert (GO : forall w x t, sh_cons w x (sh_loop parse_f64 fuel t) = inl (query, ps) -> (forall z, ~ In (ISInt z) x) -> ~ In x2d w -> (forall z, ~ In (ISInt z) ps) /\ ~ In x2d query).
    { intros w x t0 E' X W. destruct (sh_loop parse_f64 fuel t0) as [[q' l]|f] eqn:E0; [|discriminate E']. injection E' as <- <-. destruct (IH _ _ _ E0) as [A B].
      split; [intros z I|intros I]; apply in_app_iff in I as [I|I]; [exact (X z I)|exact (A z I)|exact (W I)|exact (B I)]. }
    assert (Q : ~ In x2d [x3f]) by (intros [H|[]]; discriminate H). cbn [sh_loop] in E. destruct (word_start b).
    { destruct (scan_ident (b :: q)) as [w t0] eqn:SI. apply scan_ident_spec in SI as (_ & F & _). eapply GO; [exact E|intros z []|].
      intros I. rewrite Forall_forall in F. apply F in I as [I|[I|I]]; [vm_compute in I; destruct I as [I _]; exact (I eq_refl)|vm_compute in I; destruct I as [I _]; exact (I eq_refl)|discriminate I]. }
    destruct (is_digit b).
    { destruct (read_uint parse_f64 [] 0 (b :: q)) as [[i t0]|f] eqn:R; [|discriminate E]. eapply GO; [exact E| |exact Q]. intros z [I|[]]. exact (RU _ _ _ _ _ R z I). }
    destruct (beq b x2d) eqn:MI.
    { destruct (read_sint (b :: q)) as [[i t0]|f] eqn:R; [|discriminate E]. exfalso. apply beq_eq in MI. subst b. cbn in R. discriminate R. }
    destruct (beq b x22 || beq b x27).
    { destruct (read_string b q) as [[s0 t0]|f]; [|discriminate E]. destruct (utf8_ok s0); [|discriminate E]. eapply GO; [exact E| |exact Q]. intros z [I|[]]. discriminate I. }
    destruct (beq b x60).
    { destruct (read_binary q) as [[s0 t0]|f]; [|discriminate E]. eapply GO; [exact E| |exact Q]. intros z [I|[]]. discriminate I. }
    eapply GO; [exact E|intros z []|]. intros [I|[]]. subst b. discriminate MI. }
  unfold parameterize. destruct (sh_loop parse_f64 (S (List.length line)) line) as [[q' l]|f] eqn:E; [|discriminate]. apply L in E.
  repeat match goal with |- context [if ?c then _ else _] => destruct c end; try discriminate;
    try (intros H; injection H as _ <- <-; exact E).
  destruct (split_ws q' []) as [|u [|n l0]]; [| |destruct (_ && _)]; intros H; injection H as _ <- <-; exact E.
Qed.

(** C85. A query given on the command line goes out without parameters: the server can read no literal
    in it but booleans. *)
Theorem C85_command_line utf8 q ts l : lex utf8 parse_f64 q [] = LexOk ts -> In (TLit l) ts -> exists b, l = LBool b.
Proof. intros H. apply C34_text in H. eapply text_no_literal; eassumption. Qed.

(** C86, the part that holds: a line of ASCII does not crash the shell, whatever it is; nor does a line
    of the language, with any text in its strings. Missing: [C86_refuted]. *)
Theorem C86_no_crash_partial line : Forall (fun b => b2n b < 128) line \/ (len line < two64 /\ exists ts ts', arrives parse_f64 line [] ts ts') ->
  parameterize parse_f64 line <> ShPanic.
Proof.
  intros [F|(L & ts & ts' & A)] E.
  - unfold parameterize in E. destruct (sh_loop parse_f64 (S (List.length line)) line) as [[q ps]|f] eqn:SL; [|discriminate E].
    assert (FQ : Forall (fun b => b2n b < 128) q).
    { apply Forall_forall. intros b I. destruct (loop_bytes _ _ _ _ _ SL b I) as [-> |X]; [reflexivity|]. rewrite Forall_forall in F. auto. }
    rewrite (ascii_utf8 _ FQ), (ascii_boundary _ FQ), andb_false_r in E. cbn [negb] in E.
    destruct (eq_ci q _); [discriminate E|]. destruct (_ && _); [discriminate E|].
    destruct (split_ws q []) as [|u [|n l]]; try discriminate E. destruct (_ && _); discriminate E.
  - apply loop_arrives in A as (query & items & ts0 & vs & LL & FQ & _). unfold parameterize in E.
    destruct (LL (S (List.length line)) (le_n _)) as ([|fuel'] & L' & EQ); [lia|]. change (sh_loop parse_f64 (S fuel') []) with (@inl (bytes * list item) shfail ([], [])) in EQ.
    cbn [sh_cons] in EQ. rewrite EQ, !app_nil_r, (ascii_utf8 _ FQ), (ascii_boundary _ FQ), andb_false_r in E. cbn [negb] in E.
    destruct (eq_ci query _); [discriminate E|]. destruct (_ && _); [discriminate E|].
    destruct (split_ws query []) as [|u [|n l]]; try discriminate E. destruct (_ && _); discriminate E.
Qed.

(** C86. The loop always ends. *)
Theorem C86_terminates line : parameterize parse_f64 line <> ShErr ShFuel.
Proof.
  intros E. unfold parameterize in E. destruct (sh_loop parse_f64 (S (List.length line)) line) as [[q ps]|f] eqn:SL.
  - destruct (utf8_ok q); cbn [negb] in E; [|discriminate E]. destruct (eq_ci q _); [discriminate E|]. destruct (_ && _); [discriminate E|].
    destruct (_ && _); [discriminate E|]. destruct (split_ws q []) as [|u [|n l]]; try discriminate E. destruct (_ && _); discriminate E.
  - injection E as ->. eapply sh_loop_fuel; [apply le_n| |exact SL]. lia.
Qed.

(** C86. For a line without digits, quotes, accents and minus signs: the shell crashes exactly when the
    ninth byte is in the middle of a character. *)
Theorem C86_crash_exact line : utf8_ok line = true -> Forall (fun b => ~ (48 <= b2n b <= 57) /\ b <> x2d /\ b <> x22 /\ b <> x27 /\ b <> x60) line ->
  (parameterize parse_f64 line = ShPanic <-> exists a b r, line = a ++ b :: r /\ List.length a = 8%nat /\ 128 <= b2n b < 192).
Proof.
  intros U F. assert (SL : sh_loop parse_f64 (S (List.length line)) line = inl (line, [])).
  { apply (plain_loop parse_f64 (List.length line)); [lia|lia|]. eapply Forall_impl; [|exact F]. intros b (D & N). split; [|exact N].
    destruct (is_digit b) eqn:X; [|reflexivity]. apply is_digit_iff in X. contradiction. }
  unfold parameterize. rewrite SL, U. cbn [negb].
  assert (C : forall b, cont b = true <-> 128 <= b2n b < 192).
  { intros b. unfold cont, byte_in. rewrite andb_true_iff, !N.leb_le. lia. }
  assert (B : boundary8 line = false <-> exists a b r, line = a ++ b :: r /\ List.length a = 8%nat /\ 128 <= b2n b < 192).
  { unfold boundary8. split.
    - destruct (nth_error line 8) as [b|] eqn:E; [|intros X; discriminate X]. intros X. apply nth_error_split in E as (a & r & E & L).
      exists a, b, r. split; [exact E|]. split; [exact L|]. apply C. destruct (cont b); [reflexivity|discriminate X].
    - intros (a & b & r & -> & L & X). rewrite nth_error_app2 by lia. rewrite L. cbn [Nat.sub nth_error]. apply C in X. rewrite X. reflexivity. }
  rewrite <- B. split.
  - destruct (eq_ci line _); [intros X; discriminate X|]. destruct (boundary8 line); [|reflexivity]. cbn [negb]. rewrite andb_false_r.
    destruct (_ && _); [intros X; discriminate X|].
    destruct (split_ws line []) as [|u [|n l]]; try (intros X; discriminate X). destruct (_ && _); intros X; discriminate X.
  - intros X. rewrite X. pose proof (proj1 B X) as (a & b & r & E & L & _). assert (LL : (8 <? len line) = true).
    { apply N.ltb_lt. unfold len. rewrite E, app_length. cbn [List.length]. lia. }
    assert (EC : eq_ci line (bstr "use null"%string) = false).
    { destruct (eq_ci line (bstr "use null"%string)) eqn:EC; [|reflexivity]. exfalso. apply eq_ci_iff in EC. apply (f_equal (@List.length byte)) in EC. rewrite !map_length in EC. unfold len in LL. apply N.ltb_lt in LL.
      rewrite EC in LL. vm_compute in LL. discriminate LL. }
    rewrite EC, LL. reflexivity.
Qed.
End Props.

(** *** examples *)
(** reads [1.5] only *)
Definition ex_pf (s : bytes) : option N := if bseq s (bstr "1.5"%string) then Some 4609434218613702656 else None.
Definition ex_fmt (w : N) : bytes := bstr "1.5"%string.
Lemma ex_pf_some s w : ex_pf s = Some w -> s = bstr "1.5"%string /\ w = 4609434218613702656.
Proof. unfold ex_pf. destruct (bseq s _) eqn:E; [|intros X; discriminate X]. apply bseq_eq in E. intros X. injection X as <-. auto. Qed.
Example C85_ex_fmt : fmt_ok ex_pf ex_fmt /\ forall s w, ex_pf s = Some w -> ~ In x20 s.
Proof.
  split; intros s w E; apply ex_pf_some in E as [-> ->].
  - do 3 (split; [vm_compute; intuition discriminate|]). reflexivity.
  - vm_compute. intuition discriminate.
Qed.
(** steps of the examples *)
Lemma ex_word w q r ts : match w with [] => false | b :: r => word_start b && forallb word_byte r end = true ->
  match q with [] => true | b :: _ => negb (word_byte b) end = true ->
  forall full, typed ex_pf full q r ts -> typed ex_pf full (w ++ q) r (word_token w :: ts).
Proof.
  intros W N full T. apply TyWord; [| |apply word_token_iff; reflexivity|exact T].
  - destruct w as [|b w]; [discriminate W|]. apply andb_true_iff in W as [A B]. split; [apply word_start_iff; exact A|].
    apply Forall_forall. intros c I. rewrite forallb_forall in B. apply word_byte_iff. auto.
  - destruct q as [|b q]; [exact I|]. intros X. apply word_byte_iff in X. rewrite X in N. discriminate N.
Qed.
Lemma ex_digits ds : forallb is_digit ds = true -> all_digits ds.
Proof. intros H. apply Forall_forall. intros b I. rewrite forallb_forall in H. apply is_digit_iff. auto. Qed.
Definition numendb (q : bytes) : bool :=
  match q with [] => true | b :: _ => beq b x20 || beq b x09 || beq b x0a || beq b x2c || beq b x29 end.
Lemma ex_end q : numendb q = true -> num_end q.
Proof.
  destruct q as [|b q]; [intros _; exact I|]. cbn [numendb num_end]. rewrite !orb_true_iff.
  intros [[[[X|X]|X]|X]|X]; apply beq_eq in X; subst b; [left; left; reflexivity|left; right; left; reflexivity|left; right; right; reflexivity| |].
  - right. exists SComma. split; [reflexivity|split; discriminate].
  - right. exists SCloseParen. split; [reflexivity|split; discriminate].
Qed.

(** the parts of the lines below *)
Definition ex_line : bytes := bstr "insert into xy.z(10,""a b"",1.5)"%string.
Definition ex_toks : list token :=
  [TKw (KStmt KsInsert); TKw (KMisc KmInto); TId (bstr "xy"%string); TSym SPeriod; TId (bstr "z"%string); TSym SOpenParen; TLit (LUInt 10); TSym SComma;
   TLit (LStr (bstr "a b"%string)); TSym SComma; TLit (LFloat 4609434218613702656); TSym SCloseParen].
Example C85_ex_typed : typed ex_pf false ex_line [] ex_toks.
Proof.
  apply (ex_word (bstr "insert"%string)); [reflexivity|reflexivity|]. apply TyBlank; [left; reflexivity|].
  apply (ex_word (bstr "into"%string)); [reflexivity|reflexivity|]. apply TyBlank; [left; reflexivity|].
  apply (ex_word (bstr "xy"%string)); [reflexivity|reflexivity|].
  apply (TySym ex_pf false SPeriod); [cbn; intuition discriminate|intros X; discriminate X|].
  apply (ex_word (bstr "z"%string)); [reflexivity|reflexivity|].
  apply (TySym ex_pf false SOpenParen); [cbn; intuition discriminate|intros X; discriminate X|].
  apply (TyUInt ex_pf false (bstr "10"%string)); [discriminate|apply ex_digits; reflexivity|reflexivity|apply ex_end; reflexivity|right; discriminate|].
  apply (TySym ex_pf false SComma); [cbn; intuition discriminate|intros X; discriminate X|].
  apply (TyStr ex_pf false x22 (bstr "a b"%string) (bstr "a b"%string)); [left; reflexivity|repeat (constructor; [discriminate|discriminate|]); constructor|reflexivity|right; vm_compute; intuition discriminate|].
  apply (TySym ex_pf false SComma); [cbn; intuition discriminate|intros X; discriminate X|].
  apply (TyFloat ex_pf false (bstr "1"%string) (bstr "5"%string)); [discriminate|apply ex_digits; reflexivity|reflexivity|discriminate|apply ex_digits; reflexivity|reflexivity|apply ex_end; reflexivity|right; discriminate|].
  apply (TySym ex_pf false SCloseParen); [cbn; intuition discriminate|intros X; discriminate X|]. constructor.
Qed.
Example C85_ex_sent : sent ex_pf ex_fmt (parameterize ex_pf ex_line) ex_toks.
Proof. apply C85_sent_partial; [apply C85_ex_fmt|reflexivity|exact C85_ex_typed]. Qed.

(** a line that is sent with a minus sign in a string, and lines refused for theirs *)
Example C85_never_negative_example :
  parameterize ex_pf (bstr "select * from m where a = 'x-1' and b = 5"%string) = ShOk KStandard (bstr "select * from m where a = ? and b = ?"%string) [IStr (bstr "x-1"%string); IUInt 5] /\
  parameterize ex_pf (bstr "update m set n -= 1"%string) = ShErr FSInt /\ parameterize ex_pf (bstr "select -9"%string) = ShErr FSInt.
Proof. repeat split; vm_compute; reflexivity. Qed.

(** C85 is false: the string typed as [""a\""b""] has three characters and arrives with four *)
Lemma esc_example : esc x22 (bstr "a""b"%string) (bstr "a\""b"%string).
Proof. apply EscPlain; [discriminate|discriminate|]. apply EscQuote. apply EscPlain; [discriminate|discriminate|]. constructor. Qed.
Definition ex_escape : bytes := bstr """a\""b"""%string.
Theorem C85_escape_refuted : exists line ts ts', typed ex_pf true line [] ts /\ sent ex_pf ex_fmt (parameterize ex_pf line) ts' /\
  ~ sent ex_pf ex_fmt (parameterize ex_pf line) ts /\ ts = [TLit (LStr (bstr "a""b"%string))] /\ ts' = [TLit (LStr (bstr "a""\b"%string))].
Proof.
  exists ex_escape, [TLit (LStr (bstr "a""b"%string))], [TLit (LStr (bstr "a""\b"%string))].
  assert (S : sent ex_pf ex_fmt (parameterize ex_pf ex_escape) [TLit (LStr (bstr "a""\b"%string))]).
  { eapply C85_arrives; [apply C85_ex_fmt|reflexivity|].
    apply (ArStr ex_pf x22 (bstr "a""b"%string) (bstr "a""\b"%string) (bstr "a\""b"%string) []); [left; reflexivity|exact esc_example|reflexivity| |constructor].
    apply KeptPlain; [discriminate|discriminate|]. apply (KeptEsc x22 x22); [right; reflexivity|]. apply KeptPlain; [discriminate|discriminate|]. constructor. }
  split; [apply (TyStr ex_pf true x22 (bstr "a""b"%string) (bstr "a\""b"%string) []); [left; reflexivity|exact esc_example|reflexivity|left; reflexivity|constructor]|].
  split; [exact S|]. split; [|split; reflexivity]. intros S'. pose proof (sent_det _ _ _ _ _ S S') as X. discriminate X.
Qed.
(** a binary literal arrives with the accent that closes it *)
Theorem C85_binary_refuted : exists line ts ts', typed ex_pf true line [] ts /\ sent ex_pf ex_fmt (parameterize ex_pf line) ts' /\
  ~ sent ex_pf ex_fmt (parameterize ex_pf line) ts /\ ts = [TLit (LBin (bstr "ab"%string))] /\ ts' = [TLit (LBin (bstr "ab`"%string))].
Proof.
  exists (bstr "`ab`"%string), [TLit (LBin (bstr "ab"%string))], [TLit (LBin (bstr "ab`"%string))].
  assert (S : sent ex_pf ex_fmt (parameterize ex_pf (bstr "`ab`"%string)) [TLit (LBin (bstr "ab`"%string))]).
  { eapply C85_arrives; [apply C85_ex_fmt|reflexivity|]. apply (ArBin ex_pf (bstr "ab"%string) []); [vm_compute; intuition discriminate|constructor]. }
  split; [apply (TyBin ex_pf true (bstr "ab"%string) []); [reflexivity|vm_compute; intuition discriminate|constructor]|].
  split; [exact S|]. split; [|split; reflexivity]. intros S'. pose proof (sent_det _ _ _ _ _ S S') as X. discriminate X.
Qed.
(** a negative number, a float before a space and an integer at the end of a line are refused *)
Theorem C85_refused_refuted : 
  (exists ts, typed ex_pf true (bstr "-5"%string) [] ts /\ parameterize ex_pf (bstr "-5"%string) = ShErr FSInt) /\
  (exists ts, typed ex_pf true (bstr "1.5 or"%string) [] ts /\ parameterize ex_pf (bstr "1.5 or"%string) = ShErr FFloat) /\
  (exists ts, typed ex_pf true (bstr "10"%string ++ [LF]) [] ts /\ parameterize ex_pf (bstr "10"%string ++ [LF]) = ShErr FUInt).
Proof.
  split; [|split]; eexists; (split; [|vm_compute; reflexivity]).
  - apply (TySInt ex_pf true (bstr "5"%string) []); [reflexivity|discriminate|apply ex_digits; reflexivity|vm_compute; discriminate|exact I|constructor].
  - apply (TyFloat ex_pf true (bstr "1"%string) (bstr "5"%string)); [discriminate|apply ex_digits; reflexivity|reflexivity|discriminate|apply ex_digits; reflexivity|reflexivity|apply ex_end; reflexivity|left; reflexivity|].
    apply TyBlank; [left; reflexivity|]. apply (ex_word (bstr "or"%string) []); [reflexivity|reflexivity|constructor].
  - apply (TyUInt ex_pf true (bstr "10"%string)); [discriminate|apply ex_digits; reflexivity|reflexivity|apply ex_end; reflexivity|left; reflexivity|].
    apply TyBlank; [right; right; reflexivity|constructor].
Qed.
(** [x -= 1] cannot be typed *)
Example C85_ex_minus : parameterize ex_pf (bstr "update t set x -= 1 where y = 2"%string) = ShErr FSInt.
Proof.
  eapply (C85_minus_refused ex_pf _ (bstr "= 1 where y = 2"%string)).
  change (bstr "update t set x -= 1 where y = 2"%string) with (bstr "update"%string ++ x20 :: bstr "t"%string ++ x20 :: bstr "set"%string ++ x20 :: bstr "x"%string ++ x20 :: x2d :: bstr "= 1 where y = 2"%string).
  apply ex_word; [reflexivity|reflexivity|]. apply TyBlank; [left; reflexivity|].
  apply ex_word; [reflexivity|reflexivity|]. apply TyBlank; [left; reflexivity|].
  apply ex_word; [reflexivity|reflexivity|]. apply TyBlank; [left; reflexivity|].
  apply ex_word; [reflexivity|reflexivity|]. apply TyBlank; [left; reflexivity|]. constructor.
Qed.
(** on the command line *)
Example C85_ex_command_line : lex utf8_ok ex_pf (bstr "select * from a.b where x = true"%string) [] =
    LexOk [TKw (KStmt KsSelect); TSym SMul; TKw (KMisc KmFrom); TId (bstr "a"%string); TSym SPeriod; TId (bstr "b"%string); TKw (KMisc KmWhere);
           TId (bstr "x"%string); TSym SAssign; TLit (LBool true)] /\
  (forall ts, lex utf8_ok ex_pf (bstr "select * from a.b where x = 5"%string) [] <> LexOk ts).
Proof. split; [vm_compute; reflexivity|]. intros ts. vm_compute. discriminate. Qed.
(** a placeholder that is typed takes the next value *)
Example C85_ex_placeholder : parameterize ex_pf (bstr "x = ? and y = 5"%string) = ShOk KStandard (bstr "x = ? and y = ?"%string) [IUInt 5] /\
  lex utf8_ok ex_pf (bstr "x = ? and y = ?"%string) (x02 :: bstr "5"%string ++ [LF]) =
    LexOk [TId (bstr "x"%string); TSym SAssign; TLit (LUInt 5); TKw (KMisc KmAnd); TId (bstr "y"%string); TSym SAssign; TSym SQuestion].
Proof. split; vm_compute; reflexivity. Qed.

(** C86 is false: the eighth character is an e with an acute accent (two bytes) *)
Definition ex_crash : bytes := bstr "selec a"%string ++ [xc3; xa9] ++ bstr "b"%string.
Theorem C86_refuted : exists line, utf8_ok line = true /\ parameterize (fun _ => None) line = ShPanic.
Proof. exists ex_crash. split; vm_compute; reflexivity. Qed.
(** the same by the theorem *)
Example C86_ex_crash : parameterize ex_pf ex_crash = ShPanic.
Proof.
  apply C86_crash_exact; [reflexivity| |].
  - assert (B : forallb (fun b => negb (is_digit b) && negb (beq b x2d) && negb (beq b x22) && negb (beq b x27) && negb (beq b x60)) ex_crash = true) by (vm_compute; reflexivity).
    apply Forall_forall. intros b I. rewrite forallb_forall in B. specialize (B b I). rewrite !andb_true_iff, !negb_true_iff in B.
    destruct B as ((((B1 & B2) & B3) & B4) & B5). split; [intros X; apply is_digit_iff in X; congruence|].
    repeat split; intros ->; discriminate.
  - exists (bstr "selec a"%string ++ [xc3]), xa9, (bstr "b"%string). split; [reflexivity|]. split; [reflexivity|]. vm_compute. intuition discriminate.
Qed.
(** the same character elsewhere, and inside a string *)
Example C86_ex_fine : (exists k q ps, parameterize ex_pf (bstr "select a"%string ++ [xc3; xa9]) = ShOk k q ps) /\
  (exists k q ps, parameterize ex_pf (bstr "selec '"%string ++ [xc3; xa9] ++ bstr "'"%string) = ShOk k q ps).
Proof. split; do 3 eexists; vm_compute; reflexivity. Qed.
Example C86_ex_line : parameterize ex_pf ex_line <> ShPanic.
Proof. apply C86_no_crash_partial. right. split; [reflexivity|]. exists ex_toks, ex_toks. apply typed_arrives, C85_ex_typed. Qed.

Print Assumptions C85_sent_partial.
Print Assumptions C85_arrives.
Print Assumptions C85_exact.
Print Assumptions C85_minus_refused.
Print Assumptions C85_never_negative.
Print Assumptions C85_command_line.
Print Assumptions C85_escape_refuted.
Print Assumptions C85_binary_refuted.
Print Assumptions C85_refused_refuted.
Print Assumptions C86_no_crash_partial.
Print Assumptions C86_terminates.
Print Assumptions C86_crash_exact.
Print Assumptions C86_refuted.
