(** The words the shell splits a line into, against the server's tokens of the same text. *)
From Coq Require Import Strings.String List NArith ZArith Bool Lia.
From Verif Require Import Bytes NumModel NumProofs DataModel CodecModel AMap TypeModel GnsModel RowModel LexModel LexSpec LexProofs LexProps
  ParseModel ParseSpec DdlModel DdlSpec DdlAll Utf8 ShellModel ShellSpec ShellProofs ExecModel ExecProps ReplModel.
Import ListNotations.
Local Open Scope N_scope.

Lemma toks_inv_nil q : toks q [] -> Forall blank q.
Proof. remember [] as ts eqn:E. induction 1; try discriminate E; auto. Qed.
Lemma toks_inv q ts : toks q ts -> forall t ts', ts = t :: ts' -> exists bl w r, q = bl ++ w ++ r /\ Forall blank bl /\ toks r ts' /\
  ((is_word w /\ match r with [] => True | b :: _ => ~ wbyte b end /\ word_tok w t) \/
   (exists s, w = [sym_char s] /\ t = TSym s /\ s <> SUnderscore)).
Proof.
  induction 1 as [|b q ts B T IH|w q t ts W N WT T IH|s q ts NS T IH]; intros t1 ts1 E; [discriminate E| | |].
  - destruct (IH _ _ E) as (bl & w & r & -> & F & T2 & C). exists (b :: bl), w, r. split; [reflexivity|]. split; [constructor; assumption|]. auto.
  - injection E as <- <-. exists [], w, q. split; [reflexivity|]. split; [constructor|]. split; [exact T|]. left. auto.
  - injection E as <- <-. exists [], [sym_char s], q. split; [reflexivity|]. split; [constructor|]. split; [exact T|]. right. eauto.
Qed.

Lemma ws_blank b : blank b -> ascii_ws b = true.
Proof. intros [-> |[-> | ->]]; reflexivity. Qed.
Lemma ws_low b : ascii_ws (low b) = ascii_ws b.
Proof. destruct b; reflexivity. Qed.
Lemma wbyte_ws b : wbyte b -> ascii_ws b = false.
Proof.
  intros W. destruct (ascii_ws b) eqn:E; [|reflexivity]. exfalso. revert W E. unfold wbyte, letter, ascii_ws.
  destruct b; cbn; try (intros _ D; discriminate D); intros [W|[W|W]] _; try discriminate W; lia.
Qed.
Lemma word_bytes w : is_word w -> Forall wbyte w /\ w <> [].
Proof. destruct w as [|b w]; [intros []|]. intros [S F]. split; [constructor; [apply wstart_wbyte; exact S|exact F]|discriminate]. Qed.

Lemma split_blank bl q : Forall blank bl -> split_ws (bl ++ q) [] = split_ws q [].
Proof. induction 1 as [|b bl B F IH]; [reflexivity|]. cbn [app split_ws]. rewrite (ws_blank b B). exact IH. Qed.
Lemma split_word w : Forall (fun b => ascii_ws b = false) w -> forall cur q, split_ws (w ++ q) cur = split_ws q (cur ++ w).
Proof.
  induction 1 as [|b w B F IH]; intros cur q; [rewrite app_nil_r; reflexivity|].
  cbn [app split_ws]. rewrite B, IH, <- app_assoc. reflexivity.
Qed.
Lemma split_byte b q cur : ascii_ws b = false -> split_ws (b :: q) cur = split_ws q (cur ++ [b]).
Proof. intros B. cbn [split_ws]. rewrite B. reflexivity. Qed.
Lemma split_end b q cur : cur <> [] -> blank b -> split_ws (b :: q) cur = cur :: split_ws q [].
Proof. intros N B. cbn [split_ws]. rewrite (ws_blank b B). destruct cur; [congruence|reflexivity]. Qed.
Lemma split_last bl cur : cur <> [] -> Forall blank bl -> split_ws bl cur = [cur].
Proof.
  intros N F. destruct F as [|b bl B F]; [destruct cur; [congruence|reflexivity]|]. rewrite split_end by assumption.
  rewrite <- (app_nil_r bl), split_blank by exact F. reflexivity.
Qed.
Lemma split_low q : forall cur, map (map low) (split_ws q cur) = split_ws (map low q) (map low cur).
Proof.
  induction q as [|b q IH]; intros cur; [destruct cur; reflexivity|]. cbn [map split_ws]. rewrite ws_low. destruct (ascii_ws b).
  - destruct cur as [|c cur]; cbn [map]; rewrite IH; reflexivity.
  - rewrite IH, map_app. reflexivity.
Qed.
Lemma word_split w : is_word w -> forall cur q, split_ws (w ++ q) cur = split_ws q (cur ++ w).
Proof. intros W. apply split_word. eapply Forall_impl; [|apply (word_bytes w W)]. intros b. apply wbyte_ws. Qed.

(** two words *)
Lemma split_two q t1 t2 : toks q [t1; t2] -> (forall s, t1 <> TSym s) -> (forall s, t2 <> TSym s) ->
  exists u v, split_ws q [] = [u; v] /\ is_word v /\ word_tok u t1 /\ word_tok v t2.
Proof.
  intros T N1 N2. destruct (toks_inv _ _ T _ _ eq_refl) as (bl & u & r & -> & F & T2 & [(W & H & WT)|(s & _ & E & _)]); [|destruct (N1 s E)].
  destruct (toks_inv _ _ T2 _ _ eq_refl) as (bl2 & v & r2 & -> & F2 & T3 & [(W2 & H2 & WT2)|(s & _ & E & _)]); [|destruct (N2 s E)].
  apply toks_inv_nil in T3. exists u, v. split; [|auto]. rewrite split_blank by exact F. rewrite word_split by exact W. cbn [app].
  destruct F2 as [|b bl2 B F2].
  - exfalso. cbn [app] in H. destruct v as [|b v]; [destruct W2|]. cbn [app] in H. apply H. apply wstart_wbyte. apply W2.
  - cbn [app]. rewrite split_end; [|apply (word_bytes u W)|exact B]. f_equal. rewrite split_blank by exact F2. rewrite word_split by exact W2. cbn [app].
    apply split_last; [apply (word_bytes v W2)|exact T3].
Qed.

(** the dollar sign stands between blanks *)
Definition spaced (q : bytes) : Prop := exists a b1 b2 r, q = a ++ b1 :: x24 :: b2 :: r /\ blank b1 /\ blank b2.

Lemma app_uniq {A} (x : A) a : forall b a' b', ~ In x a -> ~ In x b -> a ++ x :: b = a' ++ x :: b' -> a = a' /\ b = b'.
Proof.
  induction a as [|y a IH]; intros b a' b' NA NB E; destruct a' as [|z a']; cbn [app] in E.
  - injection E as ->. auto.
  - injection E as -> ->. exfalso. apply NB. apply in_or_app. right. left. reflexivity.
  - injection E as -> _. exfalso. apply NA. left. reflexivity.
  - injection E as -> E. destruct (IH _ _ _ (fun H => NA (or_intror H)) NB E) as [-> ->]. auto.
Qed.
Lemma blank_no_dollar bl : Forall blank bl -> ~ In x24 bl.
Proof. intros F I. rewrite Forall_forall in F. destruct (F _ I) as [E|[E|E]]; discriminate E. Qed.
Lemma word_no_dollar w : is_word w -> ~ In x24 w.
Proof.
  intros W I. destruct (word_bytes w W) as [F _]. rewrite Forall_forall in F. specialize (F _ I). unfold wbyte, letter in F. cbn in F.
  destruct F as [F|[F|F]]; [lia|lia|discriminate F].
Qed.
Lemma word_hd_not_blank b w : is_word (b :: w) -> ~ blank b.
Proof. intros [W _] B. exact (wstart_not_blank b W B). Qed.

Lemma split_dollar q k c : toks q [TKw k; TSym SDollar; TId c] ->
  (spaced q /\ exists u l, split_ws q [] = u :: [x24] :: l /\ map low u = spelling k) \/
  (~ spaced q /\ ((exists u, split_ws q [] = [u; x24 :: c] /\ map low u = spelling k) \/
                  (exists u l, split_ws q [] = u :: l /\ In x24 u))).
Proof.
  intros T. destruct (toks_inv _ _ T _ _ eq_refl) as (bl & u & r & -> & F & T2 & [(W & H & WT)|(s & _ & E & _)]); [|discriminate E].
  destruct (toks_inv _ _ T2 _ _ eq_refl) as (bl2 & v & r2 & -> & F2 & T3 & [(W2 & H2 & WT2)|(s & -> & E & NS)]); [inversion WT2|].
  injection E as <-. change (sym_char SDollar) with x24 in *.
  destruct (toks_inv _ _ T3 _ _ eq_refl) as (bl3 & v & r3 & -> & F3 & T4 & [(W3 & H3 & WT3)|(s & _ & E & _)]); [|discriminate E].
  apply toks_inv_nil in T4. assert (v = c) by (inversion WT3; reflexivity). subst v. assert (LU : map low u = spelling k) by (inversion WT; assumption).
  destruct (word_bytes u W) as [_ NU]. destruct (word_bytes c W3) as [_ NC].
  assert (UN : forall a r', bl ++ u ++ bl2 ++ [x24] ++ bl3 ++ c ++ r3 = a ++ x24 :: r' -> bl ++ u ++ bl2 = a /\ bl3 ++ c ++ r3 = r').
  { intros a r' E. apply (app_uniq x24); [| |rewrite <- E, <- !app_assoc; reflexivity].
    - intros I. apply in_app_or in I as [I|I]; [exact (blank_no_dollar _ F I)|]. apply in_app_or in I as [I|I]; [exact (word_no_dollar _ W I)|exact (blank_no_dollar _ F2 I)].
    - intros I. apply in_app_or in I as [I|I]; [exact (blank_no_dollar _ F3 I)|]. apply in_app_or in I as [I|I]; [exact (word_no_dollar _ W3 I)|exact (blank_no_dollar _ T4 I)]. }
  destruct F2 as [|b2 bl2 B2 F2].
  - right. split.
    + intros (a & b1 & b3 & r' & E & B1 & B3). replace (a ++ b1 :: x24 :: b3 :: r') with ((a ++ [b1]) ++ x24 :: b3 :: r') in E by (rewrite <- app_assoc; reflexivity).
      destruct (UN _ _ E) as [E1 _]. rewrite app_nil_r in E1. destruct (exists_last NU) as (u' & b & ->). rewrite app_assoc in E1. apply app_inj_tail in E1 as [_ ->].
      destruct (word_bytes _ W) as [FW _]. apply Forall_app in FW as [_ FW]. inversion FW as [|? ? WB _]; subst. apply wbyte_ws in WB. rewrite (ws_blank _ B1) in WB. discriminate WB.
    + right. rewrite split_blank by exact F. rewrite word_split by exact W. cbn [app]. cbn [app]; rewrite (split_byte x24) by reflexivity.
      destruct F3 as [|b3 bl3 B3 F3]; cbn [app].
      * rewrite word_split by exact W3. rewrite split_last; [|intros E; apply app_eq_nil in E as [_ E]; exact (NC E)|exact T4]. eexists; eexists. split; [reflexivity|].
        apply in_or_app. left. apply in_or_app. right. left. reflexivity.
      * rewrite split_end; [|intros E; apply app_eq_nil in E as [_ E]; discriminate E|exact B3]. eexists; eexists. split; [reflexivity|]. apply in_or_app. right. left. reflexivity.
  - cbn [app] in UN |- *. destruct F3 as [|b3 bl3 B3 F3].
    + right. split.
      * intros (a & b1 & b3 & r' & E & B1 & B3). replace (a ++ b1 :: x24 :: b3 :: r') with ((a ++ [b1]) ++ x24 :: b3 :: r') in E by (rewrite <- app_assoc; reflexivity).
        destruct (UN _ _ E) as [_ E2]. cbn [app] in E2. destruct c as [|b c]; [congruence|]. injection E2 as -> _. exact (word_hd_not_blank _ _ W3 B3).
      * left. exists u. split; [|exact LU]. rewrite split_blank by exact F. rewrite word_split by exact W. cbn [app]. rewrite split_end by assumption. f_equal.
        rewrite split_blank by exact F2. cbn [app]; rewrite (split_byte x24) by reflexivity. cbn [app]. rewrite word_split by exact W3. cbn [app].
        apply split_last; [discriminate|exact T4].
    + left. split.
      * destruct (@exists_last _ (b2 :: bl2) ltac:(discriminate)) as (bl2' & b1 & E1). exists (bl ++ u ++ bl2'), b1, b3, (bl3 ++ c ++ r3). split; [|split; [|exact B3]].
        -- transitivity (bl ++ u ++ (b2 :: bl2) ++ x24 :: b3 :: bl3 ++ c ++ r3); [reflexivity|]. rewrite E1, <- !app_assoc. reflexivity.
        -- assert (FB : Forall blank (b2 :: bl2)) by (constructor; assumption). rewrite E1 in FB. apply Forall_app in FB as [_ FB]. inversion FB; assumption.
      * exists u. eexists. split; [|exact LU]. rewrite split_blank by exact F. rewrite word_split by exact W. cbn [app]. rewrite split_end by assumption. f_equal.
        rewrite split_blank by exact F2. cbn [app]; rewrite (split_byte x24) by reflexivity. cbn [app]. rewrite split_end by (discriminate || assumption). reflexivity.
Qed.

(** a text whose first word is a keyword with a blank behind it has that keyword as first token *)
Lemma split_first q ts u l k : toks q ts -> split_ws q [] = u :: l -> map low u = spelling k -> exists r, ts = TKw k :: r.
Proof.
  intros T S LU. destruct ts as [|t ts].
  { apply toks_inv_nil in T. rewrite <- (app_nil_r q), split_blank in S by exact T. discriminate S. }
  assert (PRE : forall q cur, cur <> [] -> exists v l', split_ws q cur = (cur ++ v) :: l' /\ match v with [] => True | b :: _ => match q with b' :: _ => b = b' | [] => False end end).
  { clear. induction q as [|b q IH]; intros cur N.
    - exists [], []. rewrite app_nil_r. destruct cur; [congruence|]. split; [reflexivity|exact Logic.I].
    - cbn [split_ws]. destruct (ascii_ws b).
      + exists [], (split_ws q []). rewrite app_nil_r. destruct cur; [congruence|]. split; [reflexivity|exact Logic.I].
      + destruct (IH (cur ++ [b])) as (v & l' & E & _); [intros E; apply app_eq_nil in E as [_ E]; discriminate E|].
        exists (b :: v), l'. rewrite E, <- app_assoc. split; reflexivity. }
  destruct (toks_inv _ _ T _ _ eq_refl) as (bl & w & r & -> & F & T2 & [(W & H & WT)|(s & -> & -> & NS)]); rewrite split_blank in S by exact F.
  - rewrite word_split in S by exact W. cbn [app] in S. destruct (word_bytes w W) as [FW NW]. destruct (PRE r w NW) as (v & l' & E & HV). rewrite E in S. injection S as <- _.
    assert (v = []). { destruct v as [|b v]; [reflexivity|]. exfalso. destruct r as [|b' r]; [exact HV|]. subst b'. apply H. left.
      rewrite map_app in LU. pose proof (spelling_letters k) as SL. rewrite <- LU in SL. apply Forall_app in SL as [_ SL]. cbn [map] in SL. inversion SL; assumption. }
    subst v. rewrite app_nil_r in LU. exists ts. f_equal. inversion WT as [k0 E0|E0|E0|N0 _ _]; subst.
    + f_equal. apply spelling_inj. congruence.
    + exfalso. destruct (spelling_bool k) as [A _]. congruence.
    + exfalso. destruct (spelling_bool k) as [_ A]. congruence.
    + destruct (N0 k LU).
  - exfalso. pose proof (spelling_letters k) as SL. rewrite <- LU in SL. destruct (sym_char_kind s NS) as (A & B & _).
    assert (WS : ascii_ws (sym_char s) = false) by (destruct s; reflexivity). cbn [app] in S. rewrite (split_byte _ _ _ WS) in S. cbn [app] in S.
    destruct (PRE r [sym_char s]) as (v & l' & E & HV); [discriminate|]. rewrite E in S. injection S as <- _. cbn [map app] in SL. inversion SL as [|? ? SL1 _]; subst.
    clear - SL1 NS. destruct s; cbn in SL1; lia.
Qed.

(** a USE statement the server understands *)
Definition useform (ts : list token) : Prop := exists r u, ts = kst KsUse :: r /\ use_of r = POk u.
Lemma useform_cases ts : useform ts <-> (exists k, ts = [kst KsUse; TId k]) \/ ts = [kst KsUse; kmis KmNull] \/
  exists c, ts = [kst KsUse; TSym SDollar; TId c] /\ map low c = bstr "current"%string.
Proof.
  split.
  - intros (r & u & -> & U). apply use_stmt_toks in U. destruct u as [k| |].
    + subst r. left. eauto.
    + destruct U as (c & -> & x & -> & E). right. right. exists x. split; [reflexivity|exact E].
    + subst r. right. left. reflexivity.
  - intros [(k & ->)|[-> |(c & -> & E)]]; [exists [TId k], (UseSpace k)|exists [kmis KmNull], UseNull|exists [TSym SDollar; TId c], UseCurrent]; (split; [reflexivity|]).
    + apply use_space_mk.
    + apply use_null_mk.
    + apply use_cur_mk. exists c. split; [reflexivity|exact E].
Qed.
Lemma useform_dec ts : useform ts \/ ~ useform ts.
Proof.
  destruct ts as [|[s|[k|k]|w|l] r]; try (right; intros (r0 & u & E & _); discriminate E).
  destruct k; try (right; intros (r0 & u & E & _); discriminate E).
  destruct (use_of r) as [u| | | |] eqn:U; [left; exists r, u; auto| | | |]; right; intros (r0 & u & E & U2); injection E as <-; congruence.
Qed.

(** a text with such tokens: plain bytes only *)
Lemma toks_question q ts : toks q ts -> In x3f q -> In (TSym SQuestion) ts.
Proof.
  induction 1 as [|b q ts B T IH|w q t ts W N WT T IH|s q ts NS T IH]; intros I.
  - destruct I.
  - destruct I as [->|I]; [destruct B as [B|[B|B]]; discriminate B|auto].
  - apply in_app_or in I as [I|I]; [|right; auto]. exfalso. destruct (word_bytes w W) as [F _]. rewrite Forall_forall in F. specialize (F _ I).
    unfold wbyte, letter in F. cbn in F. destruct F as [F|[F|F]]; [lia|lia|discriminate F].
  - destruct I as [E|I]; [|right; auto]. left. f_equal. apply sym_char_inj. rewrite E. reflexivity.
Qed.

Section Lines.
Variable pf : bytes -> option N.

Lemma loop_same : forall fuel q query ps, sh_loop pf fuel q = inl (query, ps) -> ~ In x3f query -> query = q.
Proof.
  induction fuel as [|f IH]; intros q query ps H NI; [discriminate H|]. destruct q as [|b r]; [injection H as <- <-; reflexivity|]. cbn [sh_loop] in H.
  assert (ADD : forall t x (e : (bytes * list item) + shfail), sh_cons t x e = inl (query, ps) -> exists q0 p0, e = inl (q0, p0) /\ query = t ++ q0).
  { intros t x [[q0 p0]|e] E; cbn [sh_cons] in E; [injection E as <- _; eauto|discriminate E]. }
  assert (HOLE : forall x (e : (bytes * list item) + shfail), sh_cons [x3f] x e = inl (query, ps) -> False).
  { intros x e E. destruct (ADD _ _ _ E) as (q0 & p0 & _ & ->). apply NI. left. reflexivity. }
  destruct (word_start b) eqn:WS.
  - destruct (scan_ident (b :: r)) as [w t] eqn:SC. destruct (scan_ident_spec _ _ _ SC) as (E & _). rewrite E.
    destruct (ADD _ _ _ H) as (q0 & p0 & H0 & ->). f_equal. eapply IH; [exact H0|]. intros I. apply NI. apply in_or_app. right. exact I.
  - destruct (is_digit b). { destruct (read_uint pf [] 0 (b :: r)) as [[i t]|e]; [destruct (HOLE _ _ H)|discriminate H]. }
    destruct (beq b x2d). { destruct (read_sint (b :: r)) as [[i t]|e]; [destruct (HOLE _ _ H)|discriminate H]. }
    destruct (beq b x22 || beq b x27). { destruct (read_string b r) as [[s t]|e]; [|discriminate H]. destruct (utf8_ok s); [destruct (HOLE _ _ H)|discriminate H]. }
    destruct (beq b x60). { destruct (read_binary r) as [[s t]|e]; [destruct (HOLE _ _ H)|discriminate H]. }
    destruct (ADD _ _ _ H) as (q0 & p0 & H0 & ->). cbn [app]. f_equal. eapply IH; [exact H0|]. intros I. apply NI. right. exact I.
Qed.

(** what [parameterize] makes of the text *)
Lemma kind_of line k q ps : parameterize pf line = ShOk k q ps -> sh_loop pf (S (List.length line)) line = inl (q, ps) /\
  ((k = KUseNull /\ map low q = bstr "use null"%string) \/
   (map low q <> bstr "use null"%string /\
    match split_ws q [] with
    | u :: n :: _ => if bseq (map low u) (bstr "use"%string) then k = (if bseq (map low n) (bstr "$current"%string) then KStandard else KUseSpace n) else next_prompt k = None
    | _ => next_prompt k = None
    end)).
Proof.
  unfold parameterize. destruct (sh_loop pf (S (List.length line)) line) as [[q0 ps0]|f] eqn:SL; [|intros D; discriminate D].
  destruct (negb (utf8_ok q0)); [intros D; discriminate D|].
  destruct (eq_ci q0 (bstr "use null"%string)) eqn:UN.
  { intros E. injection E as <- <- <-. split; [reflexivity|]. left. split; [reflexivity|]. apply eq_ci_iff in UN. exact UN. }
  assert (NN : map low q0 <> bstr "use null"%string). { intros E. assert (X : eq_ci q0 (bstr "use null"%string) = true) by (apply eq_ci_iff; exact E). congruence. }
  destruct (_ && negb _); [intros D; discriminate D|].
  destruct ((8 <? len q0) && eq_ci (firstn 8 q0) (bstr "inspect "%string)) eqn:IN.
  { intros E. injection E as <- <- <-. split; [reflexivity|]. right. split; [exact NN|]. apply andb_true_iff in IN as [_ IN]. apply eq_ci_iff in IN.
    assert (X : exists l, map (map low) (split_ws q0 []) = bstr "inspect"%string :: l).
    { rewrite split_low. assert (Q : map low q0 = map low (firstn 8 q0) ++ map low (skipn 8 q0)) by (rewrite <- map_app, firstn_skipn; reflexivity). rewrite Q, IN. eexists. reflexivity. }
    destruct X as (l & X). destruct (split_ws q0 []) as [|u [|n l']]; [discriminate X|reflexivity|]. cbn [map] in X. injection X as X _. rewrite X. reflexivity. }
  assert (CI : forall a b, map low b = b -> eq_ci a b = bseq (map low a) b).
  { intros a b E. unfold eq_ci. rewrite !map_lower, E. reflexivity. }
  destruct (split_ws q0 []) as [|u [|n l]] eqn:SP.
  1, 2: intros E; injection E as <- <- <-; (split; [reflexivity|]); right; rewrite SP; auto.
  rewrite (CI u (bstr "use"%string) eq_refl), (CI n (bstr "$current"%string) eq_refl).
  destruct (bseq (map low u) (bstr "use"%string)) eqn:U; cbn [andb].
  - destruct (bseq (map low n) (bstr "$current"%string)) eqn:C; cbn [negb]; intros E; injection E as <- <- <-; (split; [reflexivity|]); right; rewrite SP, U, C; auto.
  - intros E; injection E as <- <- <-; (split; [reflexivity|]); right; rewrite SP, U; auto.
Qed.

(** a line with the tokens of a USE statement is sent as it is *)
Definition dollars (ts : list token) : Prop := Forall (fun t => match t with TSym s => s = SDollar | _ => True end) ts.
Lemma useform_dollars ts : useform ts -> dollars ts.
Proof. intros U. apply useform_cases in U as [(k & ->)|[-> |(c & -> & _)]]; repeat constructor. Qed.
Lemma loop_toks q ts : toks q ts -> dollars ts -> forall fuel, (List.length q < fuel)%nat -> sh_loop pf fuel q = inl (q, []).
Proof.
  induction 1 as [|b q ts B T IH|w q t ts W N WT T IH|s q ts NS T IH]; intros D fuel L; destruct fuel as [|f]; try lia.
  - reflexivity.
  - destruct (blank_kind b B) as (K1 & K2 & K3 & K4 & K5 & K6 & _). cbn [List.length] in L. cbn [sh_loop]. rewrite K1, K2, K3, K4, K5, K6. cbn [orb].
    rewrite (IH D) by lia. reflexivity.
  - inversion D as [|? ? _ D2]; subst. destruct (word_bytes w W) as [FW NW]. pose proof (scan_ident_app w q FW N) as SC.
    rewrite app_length in L. destruct w as [|b w]; [congruence|]. cbn [List.length] in L. cbn [app sh_loop]. destruct W as [WS _]. apply word_start_iff in WS. rewrite WS.
    change (b :: w ++ q) with ((b :: w) ++ q). rewrite SC, (IH D2) by lia. reflexivity.
  - inversion D as [|? ? E D2]; subst. cbn [List.length] in L. cbn [sh_loop sym_char]. rewrite (IH D2) by lia. reflexivity.
Qed.
Lemma toks_ascii q ts : toks q ts -> Forall (fun b => b2n b < 128) q.
Proof.
  induction 1 as [|b q ts B T IH|w q t ts W N WT T IH|s q ts NS T IH]; [constructor| | |].
  - constructor; [apply (blank_kind b B)|exact IH].
  - apply Forall_app. split; [apply word_ascii; exact W|exact IH].
  - constructor; [destruct s; cbn; lia|exact IH].
Qed.
Lemma use_line line ts : toks line ts -> useform ts -> exists k, parameterize pf line = ShOk k line [].
Proof.
  intros T U. pose proof (toks_ascii _ _ T) as A. unfold parameterize. rewrite (loop_toks _ _ T (useform_dollars _ U)) by lia.
  rewrite (ascii_utf8 _ A), (ascii_boundary _ A). cbn [negb]. rewrite andb_false_r. destruct (eq_ci line _); [eauto|].
  destruct (_ && _); [eauto|]. destruct (split_ws line []) as [|u [|n l]]; eauto. destruct (_ && _); eauto.
Qed.

(** parameters make no USE statement: the tokens of one come from the text alone *)
Lemma use_text utf8 (enc : item -> bytes) q ps ts : (forall i, exists b t, enc i = b :: t /\ b <> x00) ->
  lex utf8 pf q (concat (map enc ps)) = LexOk ts -> useform ts -> toks q ts.
Proof.
  intros EN L U. apply lex_iff in L as (ts0 & vs & T & P & ->). pose proof (params_lit _ _ _ _ _ P) as PL.
  enough (X : fill ts0 vs = ts0) by (rewrite X; exact T). destruct vs as [|v vs]; [apply fill_nil|].
  apply useform_cases in U. destruct ts0 as [|t0 r0]; [reflexivity|]. cbn [fill] in U |- *. inversion PL as [|? ? V PL2]; subst.
  destruct (hole t0) eqn:H0.
  { exfalso. destruct U as [(k & E)|[E|(c & E & _)]]; injection E as -> _; destruct V as [V|(x & V)]; discriminate V. }
  f_equal. rewrite (holes_skip _ _ H0) in P.
  assert (NULL : v <> TKw (KMisc KmNull) \/ holes r0 = 0%nat).
  { destruct (holes r0) as [|h]; [right; reflexivity|]. left. intros ->. inversion P as [| |p0 v0 p' n0 vs0 R P2]; subst. assert (Z : forall p1 v1 p2, reads utf8 pf p1 v1 p2 -> v1 = TKw (KMisc KmNull) -> exists r, p1 = x00 :: r) by (intros p1 v1 p2 R1 E1; destruct R1; try discriminate E1; eauto).
    destruct (Z _ _ _ R eq_refl) as (rr & E). destruct ps as [|i ps]; [discriminate E|]. cbn [map concat] in E.
    destruct (EN i) as (b & t & E2 & NB). rewrite E2 in E. injection E as -> _. congruence. }
  assert (NOH : forall r v vs, holes r = 0%nat -> fill r (v :: vs) = r).
  { clear. induction r as [|t r IH]; intros v vs H; [reflexivity|]. cbn [fill]. unfold holes in H. cbn [filter] in H. destruct (hole t) eqn:E; [discriminate H|]. f_equal. apply IH. exact H. }
  destruct NULL as [NV|H]; [|apply NOH; exact H]. destruct V as [V|(x & ->)]; [congruence|]. clear NV.
  destruct U as [(k & E)|[E|(c & E & _)]]; injection E as E0 E; destruct r0 as [|t1 r1]; try discriminate E; cbn [fill] in E |- *; destruct (hole t1) eqn:H1; try discriminate E.
  - injection E as -> E. destruct r1 as [|t2 r2]; [reflexivity|]. cbn [fill] in E. destruct (hole t2); discriminate E.
  - injection E as -> E. destruct r1 as [|t2 r2]; [reflexivity|]. cbn [fill] in E. destruct (hole t2); discriminate E.
  - injection E as -> E. f_equal. destruct r1 as [|t2 r2]; [discriminate E|]. cbn [fill] in E |- *. destruct (hole t2) eqn:H2; [discriminate E|]. injection E as -> E.
    f_equal. destruct r2 as [|t3 r3]; [reflexivity|]. cbn [fill] in E. destruct (hole t3); discriminate E.
Qed.
End Lines.
