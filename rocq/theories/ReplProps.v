(** The shell's prompt: C119. *)
From Coq Require Import Strings.String List NArith ZArith Bool Lia.
From Verif Require Import Bytes NumModel NumProofs DataModel CodecModel AMap TypeModel GnsModel RowModel LexModel LexSpec LexProofs LexProps
  ParseModel ParseSpec DdlModel DdlSpec DdlAll Utf8 ShellModel ShellSpec ShellProofs ExecModel ExecProps ReplModel ReplProofs.
Import ListNotations.
Local Open Scope N_scope.

(** the prompt of a current space *)
Definition shows (p : bytes) (cs : option bytes) : Prop :=
  p = match cs with Some k => k ++ bstr "> "%string | None => bstr "> "%string end.

(** the lines that make the prompt wrong, from what is typed:
    USE NULL with anything but one space between the words and nothing around them; USE $ CURRENT with
    blanks on both sides of the dollar sign; USE $CURRENT when the space is gone *)
Inductive misleads (n : ns) (cur : option bytes) (line : bytes) : Prop :=
| ml_null : toks line [kst KsUse; kmis KmNull] -> map low line <> bstr "use null"%string -> misleads n cur line
| ml_dollar c a b1 b2 r : toks line [kst KsUse; TSym SDollar; c] -> spells (bstr "current"%string) c ->
    line = a ++ b1 :: x24 :: b2 :: r -> blank b1 -> blank b2 -> misleads n cur line
| ml_gone c k : toks line [kst KsUse; TSym SDollar; c] -> spells (bstr "current"%string) c ->
    cur = Some k -> has_space k n = false -> misleads n cur line.

(** the client library sends a code for each value, and never that of NULL: the shell has no parameter
    NULL *)
Definition not_null (enc : item -> bytes) : Prop := forall i, exists b t, enc i = b :: t /\ b <> x00.

Lemma tdet q a b : toks q a -> toks q b -> a = b.
Proof. apply (toks_det utf8_ok (fun _ => None)). Qed.

Section Repl.
Variable parse_f64 : bytes -> option N.
Variable enc : item -> bytes.
Variable uuid_text : nat -> bytes.
Variable uuid_bin : nat -> bytes.
Variable now_secs : nat -> N.
Variable order : list (bytes * field) -> list (bytes * field).
Variable hash : bytes -> N -> bytes.
Variable data : Type.
Variable dans : Type.
Variable dml : request -> ns -> data -> data * dans.
Variable inspect : session -> ns -> data -> inspect_stmt -> dans.
Variable dtold : dans -> option bool.
Notation query := (query uuid_text uuid_bin now_secs order hash data dans dml inspect).
Notation repl_line := (repl_line parse_f64 enc uuid_text uuid_bin now_secs order hash data dans dml inspect dtold).
Notation repl_run := (repl_run parse_f64 enc uuid_text uuid_bin now_secs order hash data dans dml inspect dtold).

Lemma not_useform c en w d ts c' w' d' a : query c en w d ts = (c', w', d', a) -> ~ useform ts -> c_cs c' = c_cs c.
Proof.
  intros Q N. pose proof (query_selects uuid_text uuid_bin now_secs order hash data dans dml inspect c en w d ts) as [SE _].
  unfold ExecModel.use_step in SE. rewrite Q in SE. inversion SE as [k E H E2|E E2|x k E S C H E2|A B C E2]; [| | |reflexivity]; exfalso; apply N, useform_cases.
  - left. eauto.
  - right. left. exact E.
  - right. right. destruct S as (y & -> & L). exists y. split; [exact E|exact L].
Qed.
Lemma use_refused c en w d r c' w' d' a : query c en w d (kst KsUse :: r) = (c', w', d', a) -> ~ useform (kst KsUse :: r) -> told dans dtold a <> Some true.
Proof.
  intros Q N. unfold ExecModel.query in Q. cbn [kst ExecModel.dispatch is_blocking nonblocking] in Q. destruct (use_of r) as [u| | | |] eqn:U; cbn [of_pres] in Q.
  1: { destruct N. exists r, u. auto. }
  all: injection Q as <- <- <- <-; cbn [told]; intros D; discriminate D.
Qed.
Lemma use_query c en w d r u : use_of r = POk u -> query c en w d (kst KsUse :: r) = let '(c', a) := do_use dans c (w_ns w) u in (c', w, d, a).
Proof. intros U. unfold ExecModel.query. cbn [kst ExecModel.dispatch is_blocking nonblocking]. rewrite U. reflexivity. Qed.
Lemma misleads_useform n cur line : misleads n cur line -> exists ts, toks line ts /\ useform ts.
Proof.
  intros [T _|c a b1 b2 r T (x & -> & E) _ _ _|c k T (x & -> & E) _ _]; eexists; (split; [exact T|]); apply useform_cases; [right; left; reflexivity| |];
    right; right; exists x; (split; [reflexivity|exact E]).
Qed.
Lemma prompt_space k : is_word k -> k ++ bstr "> "%string <> bstr "> "%string.
Proof. intros W E. destruct k as [|b k]; [destruct W|]. apply (f_equal (@List.length _)) in E. rewrite app_length in E. cbn in E. lia. Qed.

(** C119, one line: a prompt that is right stays right, exactly if the line is none of these kinds. The
    current space is always a word, and a new session starts right ([C119_session]). *)
Theorem C119_line s en w d line s' w' d' : not_null enc ->
  shows (s_prompt s) (c_cs (s_conn s)) -> (forall k, c_cs (s_conn s) = Some k -> is_word k) ->
  repl_line s en w d line = RGo data s' w' d' ->
  (shows (s_prompt s') (c_cs (s_conn s')) <-> ~ misleads (w_ns w) (c_cs (s_conn s)) line) /\
  (forall k, c_cs (s_conn s') = Some k -> is_word k).
Proof.
  intros EN SH NM RL.
  assert (CASE : (exists ts, toks line ts /\ useform ts) \/ ~ (exists ts, toks line ts /\ useform ts)).
  { destruct (lex utf8_ok parse_f64 line []) as [ts|e|] eqn:L.
    - apply lex_text in L. destruct (useform_dec ts) as [U|U]; [left; eauto|]. right. intros (ts' & T & U'). rewrite (tdet _ _ _ T L) in U'. exact (U U').
    - right. intros (ts & T & _). apply (lex_text utf8_ok parse_f64) in T. congruence.
    - right. intros (ts & T & _). apply (lex_text utf8_ok parse_f64) in T. congruence. }
  destruct CASE as [(ts & T & U)|NO].
  - (* a USE statement *)
    assert (NOT : forall x y, lex utf8_ok parse_f64 x [] = LexOk y -> ~ useform y -> line <> x).
    { intros x y L N ->. apply lex_text in L. rewrite (tdet _ _ _ T L) in U. exact (N U). }
    unfold ReplModel.repl_line in RL.
    destruct (bseq line (bstr "!help"%string)) eqn:B1.
    { apply bseq_eq in B1. exfalso. refine (NOT _ [TSym SNot; TId (bstr "help"%string)] _ _ B1); [vm_compute; reflexivity|]. intros (r & u & E & _). discriminate E. }
    destruct (bseq line (bstr "exit"%string)) eqn:B2; [discriminate RL|].
    destruct (bseq line (bstr "clear"%string)) eqn:B3.
    { apply bseq_eq in B3. exfalso. refine (NOT _ [TId (bstr "clear"%string)] _ _ B3); [vm_compute; reflexivity|]. intros (r & u & E & _). discriminate E. }
    destruct line as [|b0 line0]; [exfalso; refine (NOT [] [] eq_refl _ eq_refl); intros (r & u & E & _); discriminate E|].
    set (line := b0 :: line0) in *. clearbody line. clear B1 B2 B3.
    destruct (use_line parse_f64 line ts T U) as (k & PA). rewrite PA in RL. cbn [map concat] in RL.
    pose proof (proj2 (lex_text utf8_ok parse_f64 line ts) T) as LX. rewrite LX in RL.
    apply kind_of in PA as (_ & KD). pose proof U as U0. apply useform_cases in U0 as [(n & E)|[E|(c & E & LC)]]; subst ts.
    + (* USE space *)
      assert (NML : ~ misleads (w_ns w) (c_cs (s_conn s)) line).
      { intros [T2 _|c a b1 b2 r T2 _ _ _ _|c k0 T2 _ _ _]; pose proof (tdet _ _ _ T T2) as D; discriminate D. }
      destruct (split_two _ _ _ T ltac:(discriminate) ltac:(discriminate)) as (u & v & SP & WV & WU & WN). assert (v = n) by (inversion WN; reflexivity). subst v.
      assert (LU : map low u = bstr "use"%string) by (inversion WU; assumption).
      rewrite (use_query _ _ _ _ [TId n] (UseSpace n) (use_space_mk n)) in RL. cbn [do_use] in RL. destruct (has_space n (w_ns w)) eqn:HS; cbn [told] in RL; injection RL as <- _ _; cbn [s_prompt s_conn c_cs].
      * split; [|intros k0 E; injection E as <-; exact WV]. split; [intros _; exact NML|intros _].
        destruct KD as [[-> LQ]|[_ KD]].
        -- exfalso. assert (X : split_ws (map low line) [] = map (map low) (split_ws line [])) by (rewrite split_low; reflexivity). rewrite LQ, SP in X. change (split_ws (bstr "use null"%string) []) with [bstr "use"%string; bstr "null"%string] in X. cbn [map] in X. injection X as _ X.
           inversion WN as [| | |NK _ _]; subst. apply (NK (KMisc KmNull)). rewrite <- X. reflexivity.
        -- rewrite SP, LU in KD. change (bseq (bstr "use"%string) (bstr "use"%string)) with true in KD. cbv iota in KD.
           assert (X : bseq (map low n) (bstr "$current"%string) = false).
           { destruct (bseq (map low n) (bstr "$current"%string)) eqn:E; [|reflexivity]. apply bseq_eq in E. exfalso. destruct n as [|b n]; [destruct WV|]. destruct WV as [WV _]. cbn [map] in E. injection E as E _.
             unfold wstart, letter in WV. destruct WV as [WV| ->]; [rewrite E in WV; cbn in WV; lia|discriminate E]. }
           rewrite X in KD. subst k. reflexivity.
      * split; [|exact NM]. split; [intros _; exact NML|intros _; exact SH].
    + (* USE NULL *)
      rewrite (use_query _ _ _ _ [kmis KmNull] UseNull use_null_mk) in RL. cbn [do_use told] in RL. injection RL as <- _ _. cbn [s_prompt s_conn c_cs].
      split; [|intros k0 E; discriminate E]. destruct KD as [[-> LQ]|[NQ KD]].
      * split; [intros _|intros _; reflexivity]. intros [_ N|c a b1 b2 r T2 _ _ _ _|c k0 T2 _ _ _]; [exact (N LQ)| |]; pose proof (tdet _ _ _ T T2) as D; discriminate D.
      * destruct (split_two _ _ _ T ltac:(discriminate) ltac:(discriminate)) as (u & v & SP & WV & WU & WN). rewrite SP in KD.
        assert (LU : map low u = bstr "use"%string) by (inversion WU; assumption). assert (LV : map low v = bstr "null"%string) by (inversion WN; assumption). rewrite LU, LV in KD.
        cbn in KD. subst k. cbn [next_prompt]. split; [intros X; destruct (prompt_space v WV X)|]. intros X. destruct X. apply ml_null; assumption.
    + (* USE $CURRENT *)
      assert (SC : spells (bstr "current"%string) (TId c)) by (exists c; split; [reflexivity|exact LC]).
      rewrite (use_query _ _ _ _ [TSym SDollar; TId c] UseCurrent (use_cur_mk _ SC)) in RL. cbn [do_use] in RL.
      assert (LOOK : (c_cs (s_conn s) = None \/ exists k0, c_cs (s_conn s) = Some k0 /\ has_space k0 (w_ns w) = true) ->
        s' = mk_shell (match next_prompt k with Some p => p | None => s_prompt s end) (s_conn s) ->
        (shows (s_prompt s') (c_cs (s_conn s')) <-> ~ misleads (w_ns w) (c_cs (s_conn s)) line) /\ (forall k, c_cs (s_conn s') = Some k -> is_word k)).
      { intros LV ->. cbn [s_prompt s_conn]. split; [|exact NM].
        assert (NG : ~ spaced line -> ~ misleads (w_ns w) (c_cs (s_conn s)) line).
        { intros NS [T2 _|x a b1 b2 r T2 _ E B1 B2|x k0 T2 _ E G]; [pose proof (tdet _ _ _ T T2) as D; discriminate D| |].
          - apply NS. exists a, b1, b2, r. auto.
          - destruct LV as [LV|(k1 & LV & HS)]; congruence. }
        assert (NN : map low line <> bstr "use null"%string).
        { intros X. assert (Y : split_ws (map low line) [] = map (map low) (split_ws line [])) by (rewrite split_low; reflexivity). rewrite X in Y. change (split_ws (bstr "use null"%string) []) with [bstr "use"%string; bstr "null"%string] in Y.
          destruct (split_dollar _ _ _ T) as [(_ & u & l & SP & _)|(_ & [(u & SP & _)|(u & l & SP & IN)])]; rewrite SP in Y; cbn [map] in Y.
          - injection Y as _ Y _. discriminate Y.
          - injection Y as _ Y. discriminate Y.
          - injection Y as Y _. assert (Z : In (low x24) (map low u)) by (apply in_map; exact IN). rewrite <- Y in Z. vm_compute in Z. intuition discriminate. }
        destruct KD as [[_ LQ]|[_ KD]]; [congruence|].
        destruct (split_dollar _ _ _ T) as [(SPC & u & l & SP & LU)|(NS & [(u & SP & LU)|(u & l & SP & IN)])]; rewrite SP in KD.
        - rewrite LU in KD. cbn in KD. subst k. cbn [next_prompt]. split.
          + intros X. exfalso. unfold shows in X. destruct (c_cs (s_conn s)) as [k0|] eqn:CS.
            * apply app_inv_tail in X. subst k0. destruct (NM _ eq_refl) as [W _]. unfold wstart, letter in W. cbn in W. destruct W as [W|W]; [lia|discriminate W].
            * discriminate X.
          + intros X. destruct X. destruct SPC as (a & b1 & b2 & r & E & B1 & B2). eapply ml_dollar; eauto.
        - rewrite LU in KD. cbn [map] in KD. rewrite LC in KD. cbn in KD. subst k. cbn [next_prompt]. split; [intros _; apply NG; exact NS|intros _; exact SH].
        - assert (KN : next_prompt k = None).
          { destruct l as [|n l]; [exact KD|]. destruct (bseq (map low u) (bstr "use"%string)) eqn:BU; [|exact KD]. exfalso. apply bseq_eq in BU.
            assert (Z : In (low x24) (map low u)) by (apply in_map; exact IN). rewrite BU in Z. vm_compute in Z. intuition discriminate. }
          rewrite KN. split; [intros _; apply NG; exact NS|intros _; exact SH]. }
      destruct (c_cs (s_conn s)) as [k0|] eqn:CS.
      * destruct (has_space k0 (w_ns w)) eqn:HS; cbn [told] in RL.
        -- injection RL as <- _ _. apply LOOK; [right; eauto|reflexivity].
        -- injection RL as <- _ _. cbn [s_prompt s_conn c_cs]. split; [|intros k1 E; discriminate E]. split.
           ++ intros X. exfalso. unfold shows in SH, X. rewrite SH in X. exact (prompt_space k0 (NM k0 eq_refl) X).
           ++ intros X. destruct X. eapply ml_gone; eauto.
      * cbn [told] in RL. injection RL as <- _ _. apply LOOK; [left; reflexivity|reflexivity].
  - (* anything else *)
    assert (NML : ~ misleads (w_ns w) (c_cs (s_conn s)) line) by (intros M; exact (NO (misleads_useform _ _ _ M))).
    assert (SAME : forall x : shell, s_prompt x = s_prompt s -> c_cs (s_conn x) = c_cs (s_conn s) ->
      (shows (s_prompt x) (c_cs (s_conn x)) <-> ~ misleads (w_ns w) (c_cs (s_conn s)) line) /\ (forall k, c_cs (s_conn x) = Some k -> is_word k)).
    { intros x E1 E2. rewrite E1, E2. split; [|exact NM]. split; [intros _; exact NML|intros _; exact SH]. }
    unfold ReplModel.repl_line in RL.
    destruct (bseq line _); [injection RL as <- _ _; auto|]. destruct (bseq line _); [discriminate RL|]. destruct (bseq line _); [injection RL as <- _ _; auto|].
    destruct line as [|b0 line0]; [injection RL as <- _ _; auto|]. set (line := b0 :: line0) in *. clearbody line.
    destruct (parameterize parse_f64 line) as [k q ps|f|] eqn:PA; [|injection RL as <- _ _; auto|discriminate RL].
    destruct (lex utf8_ok parse_f64 q (concat (map enc ps))) as [ts|e|] eqn:LX; [|injection RL as <- _ _; auto|injection RL as <- _ _; auto].
    apply kind_of in PA as (SL & KD).
    assert (NU : ~ useform ts).
    { intros U. pose proof (use_text parse_f64 utf8_ok enc q ps ts EN LX U) as T. apply NO. exists ts. split; [|exact U].
      rewrite <- (loop_same parse_f64 _ _ _ _ SL); [exact T|]. intros I. pose proof (toks_question _ _ T I) as I2. pose proof (useform_dollars _ U) as D.
      unfold dollars in D. rewrite Forall_forall in D. specialize (D _ I2). discriminate D. }
    destruct (query (s_conn s) en w d ts) as [[[c' w1] d1] a] eqn:Q. pose proof (not_useform _ _ _ _ _ _ _ _ _ Q NU) as CS.
    destruct (told dans dtold a) as [[|]|] eqn:TA; [|injection RL as <- _ _; apply SAME; [reflexivity|exact CS]|discriminate RL].
    injection RL as <- _ _. apply SAME; [|exact CS]. cbn [s_prompt].
    apply lex_iff in LX as (ts0 & vs & T & P & ->).
    destruct KD as [[-> LQ]|[_ KD]].
    + exfalso. apply NU. apply useform_cases. right. left.
      assert (T0 : toks q [kst KsUse; kmis KmNull]).
      { clear - LQ. assert (LEN : List.length q = 8%nat) by (rewrite <- (map_length low q), LQ; reflexivity).
        rewrite <- (firstn_skipn 3 q). assert (LQ1 : map low (firstn 3 q) = bstr "use"%string) by (rewrite <- firstn_map, LQ; reflexivity).
        assert (LQ2 : map low (skipn 3 q) = bstr " null"%string) by (rewrite <- skipn_map, LQ; reflexivity).
        destruct (skipn 3 q) as [|b r] eqn:SK; [discriminate LQ2|]. cbn [map] in LQ2. injection LQ2 as LB LR.
        assert (b = x20) by (clear - LB; destruct b; cbn in LB; try discriminate LB; reflexivity). subst b.
        assert (WORD : forall v k, map low v = spelling k -> is_word v).
        { clear. intros v k E. pose proof (spelling_letters k) as SL. rewrite <- E in SL. destruct v as [|b v]; [exfalso; pose proof (kw_len k) as KL; rewrite <- E in KL; cbn in KL; lia|].
          cbn [map] in SL. inversion SL as [|? ? A B]; subst. split; [left; exact A|]. clear - B. induction v as [|c v IH]; [constructor|]. cbn [map] in B. inversion B; subst. constructor; [left; assumption|auto]. }
        apply TsWord; [exact (WORD _ (KStmt KsUse) LQ1)|unfold wbyte, letter; cbn; intros [X|[X|X]]; [lia|lia|discriminate X]|apply WtKw; exact LQ1|].
        apply TsBlank; [left; reflexivity|]. rewrite <- (app_nil_r r). apply TsWord; [exact (WORD _ (KMisc KmNull) LR)|exact Logic.I|apply WtKw; exact LR|constructor]. }
      rewrite (tdet _ _ _ T T0) in *. cbn in P. rewrite (params_zero _ _ _ _ P). reflexivity.
    + destruct (next_prompt k) as [p|] eqn:NP; [|reflexivity]. exfalso.
      destruct (split_ws q []) as [|u [|n l]] eqn:SP; try congruence. destruct (bseq (map low u) (bstr "use"%string)) eqn:BU; [|congruence]. apply bseq_eq in BU.
      destruct (split_first q ts0 u (n :: l) (KStmt KsUse) T SP BU) as (r & ->).
      assert (FI : fill (kst KsUse :: r) vs = kst KsUse :: fill r vs) by (destruct vs; [rewrite !fill_nil|]; reflexivity).
      change (TKw (KStmt KsUse)) with (kst KsUse) in *. rewrite FI in *. exact (use_refused _ _ _ _ _ _ _ _ _ Q NU TA).
Qed.

(** the lines of a session that mislead, each judged by the current space it finds *)
Fixpoint misled (s : shell) (l : list (env * world * data * bytes)) : Prop :=
  match l with
  | [] => False
  | (en, w, d, line) :: r =>
      misleads (w_ns w) (c_cs (s_conn s)) line \/
      match repl_line s en w d line with RGo _ s' _ _ => misled s' r | _ => False end
  end.
(** C119, the part that holds: in a session without such lines the prompt is right at every moment, for
    every user and whatever other connections do. Missing: the sessions with such lines, where it is
    wrong ([C119_line], [C119_refuted]). *)
Theorem C119_session_partial se l s : not_null enc ->
  ~ misled (mk_shell prompt0 (mk_conn se None)) l -> repl_run (mk_shell prompt0 (mk_conn se None)) l = Some s ->
  shows (s_prompt s) (c_cs (s_conn s)).
Proof.
  intros EN. assert (G : forall l s0, shows (s_prompt s0) (c_cs (s_conn s0)) -> (forall k, c_cs (s_conn s0) = Some k -> is_word k) ->
    ~ misled s0 l -> repl_run s0 l = Some s -> shows (s_prompt s) (c_cs (s_conn s))).
  { clear l. induction l as [|[[[en w] d] line] l IH]; intros s0 SH NM N R; cbn [ReplModel.repl_run] in R; [injection R as <-; exact SH|].
    cbn [misled] in N. destruct (repl_line s0 en w d line) as [s1 w1 d1| |] eqn:E; try discriminate R.
    destruct (C119_line _ _ _ _ _ _ _ _ EN SH NM E) as [S1 N1]. apply (IH s1); [apply S1; tauto|exact N1|tauto|exact R]. }
  apply G; [reflexivity|]. intros k E. discriminate E.
Qed.
(** before the first such line nothing is wrong, after it the prompt is wrong at once *)
Theorem C119_wrong_at_once s en w d line s' w' d' : not_null enc ->
  shows (s_prompt s) (c_cs (s_conn s)) -> (forall k, c_cs (s_conn s) = Some k -> is_word k) ->
  repl_line s en w d line = RGo data s' w' d' -> misleads (w_ns w) (c_cs (s_conn s)) line -> ~ shows (s_prompt s') (c_cs (s_conn s')).
Proof. intros EN SH NM R M X. destruct (C119_line _ _ _ _ _ _ _ _ EN SH NM R) as [[A _] _]. exact (A X M). Qed.
End Repl.

Print Assumptions C119_line.
Print Assumptions C119_session_partial.
Print Assumptions C119_wrong_at_once.

(** ** Concrete cases *)
(** what the client library sends for a value; [x_pf] knows one float *)
Definition x_enc (i : item) : bytes :=
  match i with
  | IUInt n => x02 :: dec_u64 n ++ [LF]
  | ISInt z => x03 :: dec_i64 z ++ [LF]
  | IFloat _ => x04 :: bstr "1.5"%string ++ [LF]
  | IStr s => x06 :: dec_u64 (len s) ++ LF :: s
  | IBin b => x05 :: dec_u64 (len b) ++ LF :: b
  end.
Definition x_pf (s : bytes) : option N := if bseq s (bstr "1.5"%string) then Some 4609434218613702656 else None.
Example C119_enc : not_null x_enc.
Proof. intros [n|z|w|s|b]; eexists; eexists; (split; [reflexivity|]); discriminate. Qed.

Definition x_told (n : nat) : option bool := Some true.
Definition x_repl := repl_run x_pf x_enc x_zt x_zt x_zn (fun l => l) (fun p _ => p) nat nat x_dml x_inspect x_told.
Definition x_start : shell := mk_shell prompt0 x_ana.
(** the lines of a session; [x_w] has the spaces s and t, in [x_gone] there is only t *)
Definition x_lines (l : list (world * string)) : list (env * world * nat * bytes) :=
  map (fun p => (x_env, fst p, 3%nat, bstr (snd p))) l.
Definition x_prompt (l : list (world * string)) : option (bytes * option bytes) :=
  option_map (fun s => (s_prompt s, c_cs (s_conn s))) (x_repl x_start (x_lines l)).

(** a session of good lines: USE in several spellings, a space that is not there, a query with a
    parameter, looking at the current space, a bad line, the shell's own commands, USE NULL *)
Definition x_good : list (world * string) :=
  [(x_w, "use s"); (x_w, "  USE   t "); (x_w, "use nothere"); (x_w, "delete from s.m where k = 5"); (x_w, "use $current");
   (x_w, "use $Current"); (x_w, "use""t"""); (x_w, "use 't"); (x_w, "clear"); (x_w, "!help")]%string.
Example C119_ex_good : x_prompt x_good = Some (bstr "t> "%string, Some (bstr "t"%string)) /\
  x_prompt (x_good ++ [(x_w, "Use Null"%string)]) = Some (bstr "> "%string, None).
Proof. split; vm_compute; reflexivity. Qed.
(** they are good by the theorem's definition as well *)
Lemma x_not_misleads n cur line ts : lex utf8_ok x_pf line [] = LexOk ts -> ~ useform ts \/ (exists k, ts = [kst KsUse; TId k]) \/ map low line = bstr "use null"%string ->
  ~ misleads n cur line.
Proof.
  intros L H M. apply lex_text in L. destruct H as [H|[(k & ->)|H]].
  - destruct (misleads_useform _ _ _ M) as (ts' & T & U). rewrite (tdet _ _ _ T L) in U. exact (H U).
  - destruct M as [T _|c a b1 b2 r T _ _ _ _|c k0 T _ _ _]; pose proof (tdet _ _ _ L T) as D; discriminate D.
  - assert (T0 : split_ws (map low line) [] = map (map low) (split_ws line [])) by (rewrite split_low; reflexivity). rewrite H in T0.
    change (split_ws (bstr "use null"%string) []) with [bstr "use"%string; bstr "null"%string] in T0.
    assert (X : forall c, toks line [kst KsUse; TSym SDollar; c] -> spells (bstr "current"%string) c -> False).
    { intros c T (x & -> & E). destruct (split_dollar _ _ _ T) as [(_ & u & l & SP & _)|(_ & [(u & SP & _)|(u & l & SP & IN)])]; rewrite SP in T0; cbn [map] in T0.
      - injection T0 as _ Y _. discriminate Y.
      - injection T0 as _ Y. discriminate Y.
      - injection T0 as Y _. assert (Z : In (low x24) (map low u)) by (apply in_map; exact IN). rewrite <- Y in Z. vm_compute in Z. intuition discriminate. }
    destruct M as [_ N|c a b1 b2 r T S _ _ _|c k0 T S _ _]; [exact (N H)|exact (X c T S)|exact (X c T S)].
Qed.
Lemma x_not_misleads2 n cur line e : lex utf8_ok x_pf line [] = LexErr e -> ~ misleads n cur line.
Proof. intros L M. destruct (misleads_useform _ _ _ M) as (ts & T & _). apply (lex_text utf8_ok x_pf) in T. congruence. Qed.
Example C119_ex_session : let l := x_lines [(x_w, "use s"); (x_w, "delete from s.m where k = 5"); (x_w, "USE null"); (x_w, "use t")]%string in
  ~ misled x_pf x_enc x_zt x_zt x_zn (fun l => l) (fun p _ => p) nat nat x_dml x_inspect x_told x_start l /\
  exists s, x_repl x_start l = Some s /\ shows (s_prompt s) (c_cs (s_conn s)) /\ s_prompt s = bstr "t> "%string.
Proof.
  assert (G : forall n cur line, In line ["use s"; "delete from s.m where k = 5"; "USE null"; "use t"]%string -> ~ misleads n cur (bstr line)).
  { intros n cur line [<- |[<- |[<- |[<- |[]]]]].
    2: { eapply x_not_misleads2. vm_compute. reflexivity. }
    all: eapply x_not_misleads; [vm_compute; reflexivity|].
    - right. left. eexists. reflexivity.
    - right. right. reflexivity.
    - right. left. eexists. reflexivity. }
  cbv zeta. assert (N : ~ misled x_pf x_enc x_zt x_zt x_zn (fun l => l) (fun p _ => p) nat nat x_dml x_inspect x_told x_start
    (x_lines [(x_w, "use s"); (x_w, "delete from s.m where k = 5"); (x_w, "USE null"); (x_w, "use t")]%string)).
  { cbn [x_lines map fst snd]. intros M. cbn [misled] in M.
    repeat (match type of M with _ \/ _ => destruct M as [M|M]; [revert M; apply G; cbn [In]; tauto|] | context [match ?e with RGo _ _ _ _ => _ | _ => _ end] => destruct e end; try exact M). }
  split; [exact N|]. eexists. split; [vm_compute; reflexivity|]. split; reflexivity.
Qed.

(** C119 as it was meant is false: with two spaces in USE NULL, or one behind it, the prompt names a
    space "null"; looking at the current space with a blank behind the dollar sign makes it "$"; and
    when a space is dropped from another connection, looking at it leaves it in the prompt although
    the connection has let go of it. *)
Theorem C119_refuted :
  x_prompt [(x_w, "use  null"%string)] = Some (bstr "null> "%string, None) /\
  x_prompt [(x_w, "use s"%string); (x_w, "use null "%string)] = Some (bstr "null> "%string, None) /\
  x_prompt [(x_w, "use s"%string); (x_w, "use $ current"%string)] = Some (bstr "$> "%string, Some (bstr "s"%string)) /\
  x_prompt [(x_w, "use s"%string); (x_gone, "use $current"%string)] = Some (bstr "s> "%string, None).
Proof. repeat apply conj; vm_compute; reflexivity. Qed.
Print Assumptions C119_refuted.
(** the same by the theorem, in any state of the system and any right session *)
Example C119_ex_wrong s en w d s' w' d' : shows (s_prompt s) (c_cs (s_conn s)) -> (forall k, c_cs (s_conn s) = Some k -> is_word k) ->
  repl_line x_pf x_enc x_zt x_zt x_zn (fun l => l) (fun p _ => p) nat nat x_dml x_inspect x_told s en w d (bstr "use null "%string) = RGo nat s' w' d' ->
  ~ shows (s_prompt s') (c_cs (s_conn s')).
Proof.
  intros SH NM R. eapply C119_wrong_at_once; [exact C119_enc|exact SH|exact NM|exact R|]. apply ml_null; [|discriminate].
  apply (lex_text utf8_ok x_pf). vm_compute. reflexivity.
Qed.
