From Coq Require Import Strings.String List NArith ZArith Bool Lia.
From Verif Require Import Bytes NumModel NumProofs RowModel LexModel LexSpec LexProofs LexProps Utf8 ShellModel ShellSpec.
Import ListNotations.
Local Open Scope N_scope.

Lemma ascii_utf8 q : Forall (fun b => b2n b < 128) q -> utf8_ok q = true.
Proof.
  induction 1 as [|b q H F IH]; [reflexivity|]. cbn [utf8_ok]. apply N.ltb_lt in H. rewrite H. exact IH.
Qed.
Lemma ascii_boundary q : Forall (fun b => b2n b < 128) q -> boundary8 q = true.
Proof.
  intros F. unfold boundary8. destruct (nth_error q 8) as [b|] eqn:E; [|reflexivity]. apply nth_error_In in E.
  rewrite Forall_forall in F. specialize (F _ E). cbv beta in F. unfold cont, byte_in.
  assert (Z : (128 <=? b2n b) = false) by (apply N.leb_gt; exact F). rewrite Z. reflexivity.
Qed.

Lemma sym_kind s : ~ In s [SUnderscore; SQuoteS; SQuoteD; SAccent; SQuestion] -> let b := sym_char s in
  word_start b = false /\ is_digit b = false /\ (beq b x2d = true -> s = SSub) /\ beq b x22 = false /\ beq b x27 = false /\
  beq b x60 = false /\ is_punct b = true /\ b2n b < 128 /\ hole (TSym s) = false /\ beq b x20 = false /\ beq b x0a = false /\ (beq b x2e = true -> s = SPeriod) /\ word_byte b = false.
Proof.
  intros N. cbn [In] in N. destruct s; try (exfalso; tauto); cbv zeta; cbn; repeat split; try reflexivity; intros H; discriminate H.
Qed.
Lemma blank_kind b : blank b -> word_start b = false /\ is_digit b = false /\ beq b x2d = false /\ beq b x22 = false /\ beq b x27 = false /\
  beq b x60 = false /\ b2n b < 128 /\ word_byte b = false /\ beq b x2e = false.
Proof. intros [-> | [-> | ->]]; cbn; repeat split; reflexivity. Qed.
Lemma num_end_kind q : num_end q -> match q with [] => True | b :: _ =>
  is_digit b = false /\ beq b x2e = false /\ (beq b x20 || beq b x09 || is_punct b = true \/ b = x0a) /\
  (beq b x0a || beq b x09 || is_punct b = true \/ b = x20) /\ b2n b < 128 end.
Proof.
  destruct q as [|b q]; [auto|]. intros [[-> | [-> | ->]] | (s & -> & N1 & N2)]; cbn; auto.
  - repeat split; auto.
  - repeat split; auto.
  - repeat split; auto.
  - destruct s; try congruence; cbn; repeat split; auto.
Qed.

Lemma esc_len quote s body : esc quote s body -> (List.length s <= List.length body)%nat.
Proof. induction 1; cbn [List.length]; lia. Qed.

Lemma digit_byte b : (48 <= b2n b <= 57) -> is_digit b = true.
Proof. intros [A B]. apply is_digit_iff. split; assumption. Qed.

Lemma read_uint_done pf ds : forall pre v q, all_digits ds -> horner v ds < two64 ->
  read_uint pf pre v (ds ++ q) = read_uint pf (pre ++ ds) (horner v ds) q.
Proof.
  induction ds as [|b ds IH]; intros pre v q A H; [rewrite app_nil_r; reflexivity|].
  inversion A as [|? ? A1 A2]; subst. destruct (digit_low4 b A1) as (D & L & _). cbn [app read_uint]. rewrite D, L. cbv zeta.
  rewrite horner_cons in *. pose proof (horner_mono (v * 10 + digit_val b) ds).
  assert (Z : (v * 10 + digit_val b <? two64) = true) by (apply N.ltb_lt; lia). rewrite Z, IH by assumption.
  rewrite <- app_assoc. reflexivity.
Qed.

Lemma digit_not_escape b : 48 <= b2n b <= 57 -> beq b x0a || beq b x09 || is_punct b = false.
Proof. destruct b; intros [A B]; vm_compute in A, B; try (exfalso; congruence); reflexivity. Qed.
Lemma until_escape_digits es : forall q, all_digits es ->
  match q with [] => True | b :: _ => beq b x0a || beq b x09 || is_punct b = true end -> until_escape (es ++ q) = (es, q).
Proof.
  induction es as [|b es IH]; intros q A H.
  - cbn [app]. destruct q as [|b q]; [reflexivity|]. cbn [until_escape]. rewrite H. reflexivity.
  - inversion A; subst. cbn [app until_escape]. rewrite digit_not_escape by assumption. rewrite IH by assumption. reflexivity.
Qed.
Lemma digits_ascii ds : all_digits ds -> Forall (fun b => b2n b < 128) ds.
Proof. intros A. eapply Forall_impl; [|exact A]. cbv beta. intros b [_ B]. lia. Qed.

Lemma beq_neq a b : a <> b -> beq a b = false.
Proof. intros N. destruct (beq a b) eqn:E; [apply beq_eq in E; contradiction | reflexivity]. Qed.

Lemma read_string_kept quote body s' q : kept quote body s' -> quote <> x5c ->
  read_string quote (body ++ quote :: q) = inl (s', q).
Proof.
  intros K NQ. induction K as [|b t s N1 N2 K IH|e t s E K IH]; cbn [app read_string].
  - rewrite (beq_neq _ _ NQ), beq_refl. reflexivity.
  - rewrite (beq_neq _ _ N2), (beq_neq _ _ N1), IH. reflexivity.
  - rewrite beq_refl. assert (Z : beq e x5c || beq e quote = true) by (destruct E as [-> | ->]; rewrite beq_refl; auto using orb_true_r).
    rewrite Z, IH. reflexivity.
Qed.
Lemma kept_len quote body s' : kept quote body s' -> List.length s' = List.length body.
Proof. induction 1; cbn [List.length]; lia. Qed.
Lemma esc_kept quote s body : esc quote s body -> exists s', kept quote body s'.
Proof.
  induction 1 as [|b s t N1 N2 E [s' IH]|s t E [s' IH]|s t E [s' IH]].
  - exists []. constructor.
  - exists (b :: s'). constructor; auto.
  - exists (x5c :: x5c :: s'). apply KeptEsc; auto.
  - exists (quote :: x5c :: s'). apply KeptEsc; auto.
Qed.
(** the value typed is shorter than the text, the value sent is not *)
Lemma kept_same quote s body s' : esc quote s body -> kept quote body s' -> (s' = s <-> ~ In x5c body).
Proof.
  intros E K. split.
  - intros -> I. apply kept_len in K.
    assert (X : (List.length s < List.length body)%nat); [|lia]. clear K. revert I.
    induction E as [|b s t N1 N2 E IH|s t E IH|s t E IH]; intros I; cbn [In List.length] in *; [tauto| |apply esc_len in E; lia|apply esc_len in E; lia].
    destruct I as [I|I]; [congruence|]. specialize (IH I). lia.
  - intros NI. revert s E. induction K as [|b t s0 N1 N2 K IH|e t s0 N K IH]; intros s E; cbn [In] in NI.
    + inversion E. reflexivity.
    + inversion E; subst; try congruence. f_equal. apply IH; [tauto|assumption].
    + exfalso. tauto.
Qed.
(** and it is still text *)
Lemma high_plain quote b s body : quote = x22 \/ quote = x27 -> (b2n b <? 128) = false -> esc quote (b :: s) body ->
  exists t, body = b :: t /\ esc quote s t.
Proof.
  intros Q H E. inversion E; subst; [eauto| |]; exfalso; [discriminate H|]. destruct Q as [-> | ->]; discriminate H.
Qed.
Lemma high_kept quote b t s' : quote = x22 \/ quote = x27 -> (b2n b <? 128) = false -> kept quote (b :: t) s' ->
  exists u, s' = b :: u /\ kept quote t u.
Proof. intros Q H K. inversion K; subst; [eauto|]. discriminate H. Qed.
Lemma in_high lo hi b : 128 <= lo -> byte_in lo hi b = true -> (b2n b <? 128) = false.
Proof. intros L H. apply andb_true_iff in H as [H _]. apply N.leb_le in H. apply N.ltb_ge. lia. Qed.
Lemma kept_utf8 quote n : quote = x22 \/ quote = x27 -> forall s body s', (List.length s <= n)%nat -> esc quote s body -> kept quote body s' ->
  utf8_ok s = true -> utf8_ok s' = true.
Proof.
  intros Q. assert (QA : (b2n quote <? 128) = true) by (destruct Q as [-> | ->]; reflexivity).
  induction n as [|n IH]; intros s body s' L E K U.
  - destruct s; [|cbn [List.length] in L; lia]. inversion E; subst. inversion K; subst. reflexivity.
  - destruct s as [|b s]; [inversion E; subst; inversion K; subst; reflexivity|]. cbn [List.length] in L.
    cbn [utf8_ok] in U. destruct (b2n b <? 128) eqn:A.
    + inversion E as [|? ? t N1 N2 E'|? t E'|? t E']; subst; inversion K; subst; try congruence; cbn [utf8_ok]; rewrite ?A, ?QA.
      * eapply IH; [|eassumption|eassumption|assumption]. lia.
      * cbn. eapply IH; [|eassumption|eassumption|assumption]. lia.
      * change (b2n x5c <? 128) with true. cbv iota. eapply IH; [|eassumption|eassumption|assumption]. lia.
    + destruct (high_plain _ _ _ _ Q A E) as (t & -> & E1). destruct (high_kept _ _ _ _ Q A K) as (u & -> & K1). cbn [utf8_ok]. rewrite A.
      destruct (byte_in 194 223 b) eqn:R1.
      { destruct s as [|c s]; [discriminate U|]. apply andb_true_iff in U as [C1 U]. pose proof (in_high 128 191 c ltac:(lia) C1) as A1.
        destruct (high_plain _ _ _ _ Q A1 E1) as (t1 & -> & E2). destruct (high_kept _ _ _ _ Q A1 K1) as (u1 & -> & K2).
        rewrite C1. cbn [andb]. eapply IH; [|exact E2|exact K2|exact U]. cbn [List.length] in L. lia. }
      destruct (byte_in 224 239 b) eqn:R2.
      { destruct s as [|c [|d s]]; try discriminate U. apply andb_true_iff in U as [C1 U]. pose proof C1 as C0. apply andb_true_iff in C1 as [C1 C2].
        assert (A1 : (b2n c <? 128) = false).
        { destruct (b2n b =? 224); [apply (in_high 160 191); [lia|exact C1]|]. destruct (b2n b =? 237); [apply (in_high 128 159)|apply (in_high 128 191)]; (lia || exact C1). }
        pose proof (in_high 128 191 d ltac:(lia) C2) as A2.
        destruct (high_plain _ _ _ _ Q A1 E1) as (t1 & -> & E2). destruct (high_kept _ _ _ _ Q A1 K1) as (u1 & -> & K2).
        destruct (high_plain _ _ _ _ Q A2 E2) as (t2 & -> & E3). destruct (high_kept _ _ _ _ Q A2 K2) as (u2 & -> & K3).
        rewrite C0. cbn [andb]. eapply IH; [|exact E3|exact K3|exact U]. cbn [List.length] in L. lia. }
      destruct (byte_in 240 244 b) eqn:R3; [|discriminate U].
      destruct s as [|c [|d [|e s]]]; try discriminate U. apply andb_true_iff in U as [C1 U]. pose proof C1 as C0. apply andb_true_iff in C1 as [C1 C3].
      apply andb_true_iff in C1 as [C1 C2]. assert (A1 : (b2n c <? 128) = false).
      { destruct (b2n b =? 240); [apply (in_high 144 191); [lia|exact C1]|]. destruct (b2n b =? 244); [apply (in_high 128 143)|apply (in_high 128 191)]; (lia || exact C1). }
      pose proof (in_high 128 191 d ltac:(lia) C2) as A2. pose proof (in_high 128 191 e ltac:(lia) C3) as A3.
      destruct (high_plain _ _ _ _ Q A1 E1) as (t1 & -> & E2). destruct (high_kept _ _ _ _ Q A1 K1) as (u1 & -> & K2).
      destruct (high_plain _ _ _ _ Q A2 E2) as (t2 & -> & E3). destruct (high_kept _ _ _ _ Q A2 K2) as (u2 & -> & K3).
      destruct (high_plain _ _ _ _ Q A3 E3) as (t3 & -> & E4). destruct (high_kept _ _ _ _ Q A3 K3) as (u3 & -> & K4).
      rewrite C0. cbn [andb]. eapply IH; [|exact E4|exact K4|exact U]. cbn [List.length] in L. lia.
Qed.
Lemma read_binary_all b q : ~ In x60 b -> read_binary (b ++ x60 :: q) = inl (b ++ [x60], q).
Proof.
  induction b as [|x b IH]; intros NI; cbn [app read_binary]; [rewrite beq_refl; reflexivity|]. cbn [In] in NI.
  rewrite (beq_neq x x60) by tauto. rewrite IH by tauto. reflexivity.
Qed.

Lemma sh_cons_app a b x y r : sh_cons a x (sh_cons b y r) = sh_cons (a ++ b) (x ++ y) r.
Proof. destruct r as [[q l]|f]; cbn [sh_cons]; [rewrite !app_assoc; reflexivity | reflexivity]. Qed.

Definition tok_of (i : item) (t : token) : Prop :=
  match i with
  | IUInt n => n < two64 /\ t = TLit (LUInt n)
  | IFloat w => t = TLit (LFloat w)
  | IStr s => utf8_ok s = true /\ t = TLit (LStr s)
  | IBin b => t = TLit (LBin b)
  | _ => False
  end.

Section Loop.
Variable pf : bytes -> option N.

Lemma word_ascii w : is_word w -> Forall (fun b => b2n b < 128) w.
Proof.
  assert (X : forall b, wbyte b -> b2n b < 128).
  { intros b H. apply word_byte_iff in H. destruct b; vm_compute in H |- *; congruence. }
  destruct w as [|b r]; [intros []|]. intros [H F]. constructor; [apply X, wstart_wbyte, H|].
  eapply Forall_impl; [|exact F]. exact X.
Qed.

(** what the loop makes of a supported text; the items as long as the text they come from *)
Lemma loop_arrives q r ts ts' : arrives pf q r ts ts' -> exists query items ts0 vs,
  (forall fuel, (List.length q < fuel)%nat -> exists fuel', (List.length r < fuel')%nat /\ sh_loop pf fuel q = sh_cons query items (sh_loop pf fuel' r)) /\
  Forall (fun b => b2n b < 128) query /\ match query with [] => True | b :: _ => b = x3f \/ exists q', q = b :: q' end /\
  toks query ts0 /\ holes ts0 = List.length items /\ Forall2 tok_of items vs /\ fill ts0 vs = ts' /\
  (exists c, q = c ++ r) /\ Forall (fun i => match i with IStr s | IBin s => (List.length s <= List.length q)%nat | IFloat w => exists s, pf s = Some w | _ => True end) items.
Proof.
  induction 1 as [q|b q r ts ts' B T IH|w q r t ts ts' W E K T IH|s q r ts ts' N T IH|ds q r ts ts' ND A V NE NN T IH|
    ds es w q r ts ts' ND A V ND2 A2 P NE NN T IH|quote s s' body q r ts ts' Q ES U KP T IH|b q r ts ts' NB T IH].
  - exists [], [], [], []. split; [intros fuel L; exists fuel; split; [exact L|destruct (sh_loop pf fuel q) as [[a l]|f]; reflexivity]|].
    split; [constructor|]. split; [exact I|]. split; [constructor|]. split; [reflexivity|]. split; [constructor|]. split; [reflexivity|].
    split; [exists []; reflexivity|constructor].
  - destruct IH as (query & items & ts0 & vs & L & AS & HD & TK & HO & F2 & FI & (c & EC) & LE).
    destruct (blank_kind b B) as (K1 & K2 & K3 & K4 & K5 & K6 & K7 & _).
    exists (b :: query), items, ts0, vs. split.
    { intros fuel LF. destruct fuel as [|fuel]; [lia|]. cbn [List.length] in LF. destruct (L fuel) as (fuel' & L' & EQ); [lia|].
      exists fuel'. split; [exact L'|]. cbn [sh_loop]. rewrite K1, K2, K3, K4, K5, K6. cbn [orb]. rewrite EQ, sh_cons_app. reflexivity. }
    split; [constructor; assumption|]. split; [right; eauto|]. split; [apply TsBlank; assumption|]. do 3 (split; [assumption|]).
    split; [exists (b :: c); rewrite EC; reflexivity|]. eapply Forall_impl; [|exact LE]. cbn [List.length]. intros [] X; auto.
  - destruct IH as (query & items & ts0 & vs & L & AS & HD & TK & HO & F2 & FI & (c & EC) & LE).
    exists (w ++ query), items, (t :: ts0), vs. pose proof (word_tok_not_hole _ _ K) as NH. destruct w as [|b w]; [destruct W|].
    pose proof W as [WS WF]. split.
    { intros fuel LF. destruct fuel as [|fuel]; [lia|]. cbn [List.length app] in LF. rewrite app_length in LF.
      destruct (L fuel) as (fuel' & L' & EQ); [lia|]. exists fuel'. split; [exact L'|]. cbn [app sh_loop].
      apply word_start_iff in WS as WS'. rewrite WS'. change (b :: w ++ q) with ((b :: w) ++ q).
      rewrite (scan_ident_app (b :: w) q); [|constructor; [apply wstart_wbyte, WS|exact WF]|exact E].
      rewrite EQ, sh_cons_app. reflexivity. }
    split; [apply Forall_app; split; [apply word_ascii, W|exact AS]|]. split; [right; exists (w ++ q); reflexivity|].
    split. { apply TsWord; auto. destruct query as [|b0 query]; [exact I|]. destruct HD as [-> | (q' & ->)]; [|exact E].
      intros X. apply word_byte_iff in X. discriminate X. }
    split; [rewrite holes_skip by exact NH; exact HO|]. split; [exact F2|]. split; [rewrite fill_cons_skip by exact NH; congruence|].
    split; [exists ((b :: w) ++ c); rewrite EC, app_assoc; reflexivity|]. eapply Forall_impl; [|exact LE]. cbv beta.
    intros [] X; auto; rewrite app_length; lia.
  - destruct IH as (query & items & ts0 & vs & L & AS & HD & TK & HO & F2 & FI & (c & EC) & LE).
    destruct (sym_kind s) as (K1 & K2 & K3 & K4 & K5 & K6 & K7 & K8 & K9 & _); [cbn [In] in *; tauto|].
    assert (K3' : beq (sym_char s) x2d = false).
    { destruct (beq (sym_char s) x2d); [|reflexivity]. rewrite (K3 eq_refl) in N. cbn [In] in N. tauto. }
    exists (sym_char s :: query), items, (TSym s :: ts0), vs. split.
    { intros fuel LF. destruct fuel as [|fuel]; [lia|]. cbn [List.length] in LF. destruct (L fuel) as (fuel' & L' & EQ); [lia|].
      exists fuel'. split; [exact L'|]. cbn [sh_loop]. rewrite K1, K2, K3', K4, K5, K6. cbn [orb]. rewrite EQ, sh_cons_app. reflexivity. }
    split; [constructor; assumption|]. split; [right; eauto|]. split; [apply TsSym; [intros ->; apply N; left; reflexivity|assumption]|].
    split; [rewrite holes_skip by exact K9; exact HO|]. split; [exact F2|]. split; [rewrite fill_cons_skip by exact K9; congruence|].
    split; [exists (sym_char s :: c); rewrite EC; reflexivity|]. eapply Forall_impl; [|exact LE]. cbn [List.length]. intros [] X; auto.
  - destruct IH as (query & items & ts0 & vs & L & AS & HD & TK & HO & F2 & FI & (c & EC) & LE).
    apply num_end_kind in NE.
    exists (x3f :: query), (IUInt (horner 0 ds) :: items), (TSym SQuestion :: ts0), (TLit (LUInt (horner 0 ds)) :: vs). split.
    { intros fuel LF. destruct fuel as [|fuel]; [lia|]. rewrite app_length in LF. destruct ds as [|b ds]; [congruence|]. cbn [List.length] in LF.
      destruct (L fuel) as (fuel' & L' & EQ); [lia|]. exists fuel'. split; [exact L'|]. cbn [app sh_loop].
      pose proof (Forall_inv A) as A1. assert (WS : word_start b = false) by (destruct b, A1 as [X Y]; vm_compute in X, Y; try congruence; reflexivity).
      rewrite WS, (digit_byte b A1). change (b :: ds ++ q) with ((b :: ds) ++ q). rewrite read_uint_done by assumption.
      assert (RU : read_uint pf ([] ++ b :: ds) (horner 0 (b :: ds)) q = inl (IUInt (horner 0 (b :: ds)), q)).
      { destruct q as [|x q]; [reflexivity|]. cbn [read_uint]. destruct NE as (N1 & N2 & N3 & _). rewrite N1, N2.
        destruct N3 as [-> | ->]; [reflexivity|]. cbn [not_next] in NN. congruence. }
      rewrite RU, EQ, sh_cons_app. reflexivity. }
    split; [constructor; [vm_compute; reflexivity|assumption]|]. split; [left; reflexivity|].
    split; [apply (TsSym SQuestion); [discriminate|assumption]|]. split; [rewrite holes_hole, HO; reflexivity|].
    split; [constructor; [split; auto|assumption]|]. split; [cbn [fill hole]; congruence|].
    split; [exists (ds ++ c); rewrite EC, app_assoc; reflexivity|]. constructor; [exact I|]. eapply Forall_impl; [|exact LE]. cbv beta.
    intros [] X; auto; rewrite app_length; lia.
  - destruct IH as (query & items & ts0 & vs & L & AS & HD & TK & HO & F2 & FI & (c & EC) & LE).
    apply num_end_kind in NE.
    exists (x3f :: query), (IFloat w :: items), (TSym SQuestion :: ts0), (TLit (LFloat w) :: vs). split.
    { intros fuel LF. destruct fuel as [|fuel]; [lia|]. rewrite app_length in LF. cbn [List.length] in LF. rewrite app_length in LF. destruct ds as [|b ds]; [congruence|]. cbn [List.length] in LF.
      destruct (L fuel) as (fuel' & L' & EQ); [lia|]. exists fuel'. split; [exact L'|]. cbn [app sh_loop].
      pose proof (Forall_inv A) as A1. assert (WS : word_start b = false) by (destruct b, A1 as [X Y]; vm_compute in X, Y; try congruence; reflexivity).
      rewrite WS, (digit_byte b A1). change (b :: ds ++ x2e :: es ++ q) with ((b :: ds) ++ x2e :: es ++ q). rewrite read_uint_done by assumption.
      assert (RU : read_uint pf ([] ++ b :: ds) (horner 0 (b :: ds)) (x2e :: es ++ q) = inl (IFloat w, q)).
      { cbn [read_uint]. change (is_digit x2e) with false. change (beq x2e x2e) with true. cbv iota. unfold read_float.
        rewrite until_escape_digits; [|exact A2|].
        - change ([] ++ b :: ds) with (b :: ds). rewrite <- app_assoc. change ([x2e] ++ es) with (x2e :: es).
          rewrite ascii_utf8, P; [reflexivity|]. apply Forall_app. split; [apply digits_ascii; exact A|].
          constructor; [vm_compute; reflexivity|apply digits_ascii; exact A2].
        - destruct q as [|x q]; [exact I|]. destruct NE as (_ & _ & _ & N4 & _). destruct N4 as [N4 | ->]; [exact N4|].
          cbn [not_next] in NN. congruence. }
      rewrite RU, EQ, sh_cons_app. reflexivity. }
    split; [constructor; [vm_compute; reflexivity|assumption]|]. split; [left; reflexivity|].
    split; [apply (TsSym SQuestion); [discriminate|assumption]|]. split; [rewrite holes_hole, HO; reflexivity|].
    split; [constructor; [reflexivity|assumption]|]. split; [cbn [fill hole]; congruence|].
    split; [exists (ds ++ x2e :: es ++ c); rewrite EC; rewrite <- !app_assoc; cbn [app]; rewrite <- !app_assoc; reflexivity|].
    constructor; [eauto|]. eapply Forall_impl; [|exact LE]. cbv beta.
    intros [] X; auto; rewrite app_length; cbn [List.length]; rewrite app_length; lia.
  - destruct IH as (query & items & ts0 & vs & L & AS & HD & TK & HO & F2 & FI & (c & EC) & LE).
    pose proof (kept_utf8 quote (List.length s) Q s body s' (le_n _) ES KP U) as U'. pose proof (kept_len _ _ _ KP) as LK.
    assert (NQ : quote <> x5c) by (destruct Q as [-> | ->]; discriminate).
    exists (x3f :: query), (IStr s' :: items), (TSym SQuestion :: ts0), (TLit (LStr s') :: vs). split.
    { intros fuel LF. destruct fuel as [|fuel]; [lia|]. cbn [List.length] in LF. rewrite app_length in LF. cbn [List.length] in LF.
      destruct (L fuel) as (fuel' & L' & EQ); [lia|]. exists fuel'. split; [exact L'|]. cbn [sh_loop].
      assert (K : word_start quote = false /\ is_digit quote = false /\ beq quote x2d = false /\ beq quote x22 || beq quote x27 = true)
        by (destruct Q as [-> | ->]; repeat split; reflexivity).
      destruct K as (K1 & K2 & K3 & K4). rewrite K1, K2, K3, K4. rewrite (read_string_kept _ _ s') by assumption. rewrite U', EQ, sh_cons_app. reflexivity. }
    split; [constructor; [vm_compute; reflexivity|assumption]|]. split; [left; reflexivity|].
    split; [apply (TsSym SQuestion); [discriminate|assumption]|]. split; [rewrite holes_hole, HO; reflexivity|].
    split; [constructor; [split; auto|assumption]|]. split; [cbn [fill hole]; congruence|].
    split; [exists (quote :: body ++ quote :: c); rewrite EC; cbn [app]; rewrite <- app_assoc; reflexivity|].
    constructor; [cbn [List.length]; rewrite app_length; lia|]. eapply Forall_impl; [|exact LE]. cbv beta.
    intros [] X; auto; cbn [List.length]; rewrite app_length; cbn [List.length]; lia.
  - destruct IH as (query & items & ts0 & vs & L & AS & HD & TK & HO & F2 & FI & (c & EC) & LE).
    exists (x3f :: query), (IBin (b ++ [x60]) :: items), (TSym SQuestion :: ts0), (TLit (LBin (b ++ [x60])) :: vs). split.
    { intros fuel LF. destruct fuel as [|fuel]; [lia|]. cbn [List.length] in LF. rewrite app_length in LF. cbn [List.length] in LF.
      destruct (L fuel) as (fuel' & L' & EQ); [lia|]. exists fuel'. split; [exact L'|]. cbn [sh_loop].
      change (word_start x60) with false. change (is_digit x60) with false. change (beq x60 x2d) with false.
      change (beq x60 x22 || beq x60 x27) with false. rewrite beq_refl. rewrite read_binary_all by assumption. rewrite EQ, sh_cons_app. reflexivity. }
    split; [constructor; [vm_compute; reflexivity|assumption]|]. split; [left; reflexivity|].
    split; [apply (TsSym SQuestion); [discriminate|assumption]|]. split; [rewrite holes_hole, HO; reflexivity|].
    split; [constructor; [reflexivity|assumption]|]. split; [cbn [fill hole]; congruence|].
    split; [exists (x60 :: b ++ x60 :: c); rewrite EC; cbn [app]; rewrite <- app_assoc; reflexivity|].
    constructor; [rewrite app_length; cbn [List.length]; rewrite app_length; cbn [List.length]; lia|]. eapply Forall_impl; [|exact LE]. cbv beta.
    intros [] X; auto; cbn [List.length]; rewrite app_length; cbn [List.length]; lia.
Qed.

(** a minus sign is always refused *)
Lemma minus_refused fuel q : sh_loop pf (S fuel) (x2d :: q) = inr FSInt.
Proof. reflexivity. Qed.

Lemma sh_loop_fuel n : forall q fuel, (List.length q <= n)%nat -> (n < fuel)%nat -> sh_loop pf fuel q <> inr ShFuel.
Proof.
  assert (SC : forall a l r, r <> inr ShFuel -> sh_cons a l r <> inr ShFuel).
  { intros a l [[x y]|f] H; cbn [sh_cons]; [discriminate|exact H]. }
  assert (UE : forall q a t, until_escape q = (a, t) -> (List.length t <= List.length q)%nat).
  { induction q as [|b q IH]; intros a t E; cbn [until_escape] in E; [injection E as <- <-; auto|].
    destruct (beq b x0a || beq b x09 || is_punct b); [injection E as <- <-; auto|].
    destruct (until_escape q) as [a' t']. injection E as <- <-. specialize (IH _ _ eq_refl). cbn [List.length]. lia. }
  assert (RF : forall pre q, match read_float pf pre q with inl (_, t) => (List.length t <= List.length q)%nat | inr f => f <> ShFuel end).
  { intros pre q. unfold read_float. destruct (until_escape q) as [a t] eqn:E. apply UE in E.
    destruct (utf8_ok (pre ++ a)); [|discriminate]. destruct (pf (pre ++ a)); [exact E|discriminate]. }
  assert (RU : forall q pre v, match read_uint pf pre v q with inl (_, t) => (List.length t <= List.length q)%nat | inr f => f <> ShFuel end).
  { induction q as [|b q IH]; intros pre v; cbn [read_uint]; [auto|]. cbv zeta. destruct (is_digit b).
    - destruct (v * 10 + low4 b <? two64); [|discriminate]. specialize (IH (pre ++ [b]) (v * 10 + low4 b)).
      destruct (read_uint pf (pre ++ [b]) (v * 10 + low4 b) q) as [[i t]|f]; [cbn [List.length]; lia|exact IH].
    - destruct (beq b x2e).
      + specialize (RF (pre ++ [b]) q). destruct (read_float pf (pre ++ [b]) q) as [[i t]|f]; [cbn [List.length]; lia|exact RF].
      + destruct (beq b x20 || beq b x09 || is_punct b); [auto|discriminate]. }
  assert (RS : forall quote n q, (List.length q <= n)%nat -> match read_string quote q with inl (_, t) => (List.length t <= List.length q)%nat | inr f => f <> ShFuel end).
  { intros quote. induction n0 as [|n0 IH]; intros q LQ; destruct q as [|b q]; cbn [List.length] in LQ; try lia; cbn [read_string]; try discriminate.
    destruct (beq b x5c).
    - destruct q as [|e q]; [discriminate|]. destruct (beq e x5c || beq e quote); [|discriminate]. cbn [List.length] in LQ |- *.
      specialize (IH q ltac:(lia)). destruct (read_string quote q) as [[s t]|f]; [lia|exact IH].
    - destruct (beq b quote); [cbn [List.length]; lia|]. specialize (IH q ltac:(lia)).
      destruct (read_string quote q) as [[s t]|f]; [cbn [List.length]; lia|exact IH]. }
  assert (RB : forall q, match read_binary q with inl (_, t) => (List.length t <= List.length q)%nat | inr f => f <> ShFuel end).
  { induction q as [|b q IH]; cbn [read_binary]; [discriminate|]. destruct (beq b x60); [cbn [List.length]; lia|].
    destruct (read_binary q) as [[s t]|f]; [cbn [List.length]; lia|exact IH]. }
  induction n as [|n IH]; intros q fuel L LF; destruct fuel as [|fuel]; try lia.
  - destruct q; [cbn [sh_loop]; discriminate|cbn [List.length] in L; lia].
  - destruct q as [|b q]; [cbn [sh_loop]; discriminate|]. cbn [sh_loop]. cbn [List.length] in L.
    destruct (word_start b) eqn:WS.
    { destruct (scan_ident (b :: q)) as [w t] eqn:E. apply SC, IH; [|lia].
      assert (WB : word_byte b = true) by (apply word_byte_iff, wstart_wbyte, word_start_iff; exact WS).
      cbn [scan_ident] in E. rewrite WB in E. destruct (scan_ident q) as [w' t'] eqn:E2. injection E as <- <-.
      apply scan_ident_spec in E2. destruct E2 as (E2 & _). pose proof (f_equal (@List.length byte) E2) as EL.
      rewrite app_length in EL. lia. }
    destruct (is_digit b) eqn:DG.
    { specialize (RU q ([] ++ [b]) (0 * 10 + low4 b)). cbn [read_uint]. rewrite DG. cbv zeta. destruct (0 * 10 + low4 b <? two64); [|discriminate].
      destruct (read_uint pf ([] ++ [b]) (0 * 10 + low4 b) q) as [[i t]|f]; [apply SC, IH; lia|congruence]. }
    destruct (beq b x2d) eqn:MI; [apply beq_eq in MI; subst b; cbn; discriminate|].
    destruct (beq b x22 || beq b x27).
    { specialize (RS b (List.length q) q (le_n _)). destruct (read_string b q) as [[s t]|f]; [|congruence]. destruct (utf8_ok s); [apply SC, IH; lia|discriminate]. }
    destruct (beq b x60).
    { specialize (RB q). destruct (read_binary q) as [[s t]|f]; [apply SC, IH; lia|congruence]. }
    apply SC, IH; lia.
Qed.

Variable fmt : N -> bytes.
Lemma arrives_sent line ts ts' : fmt_ok pf fmt -> len line < two64 -> arrives pf line [] ts ts' -> sent pf fmt (parameterize pf line) ts'.
Proof.
  intros FO LL A. apply loop_arrives in A as (query & items & ts0 & vs & L & AS & _ & TK & HO & F2 & FI & _ & LE).
  destruct (L (S (List.length line)) (le_n _)) as (fuel' & L' & EQ). destruct fuel' as [|fuel']; [cbn in L'; lia|]. change (sh_loop pf (S fuel') []) with (@inl (bytes * list item) shfail ([], [])) in EQ.
  cbn [sh_cons] in EQ. rewrite !app_nil_r in EQ. unfold parameterize. rewrite EQ, (ascii_utf8 _ AS), (ascii_boundary _ AS), andb_false_r.
  change (negb true) with false. cbv iota.
  assert (R : exists k, (if eq_ci query (bstr "use null"%string) then ShOk KUseNull query items else
    if (8 <? len query) && false then ShPanic else
      if (8 <? len query) && eq_ci (firstn 8 query) (bstr "inspect "%string) then ShOk KSpecial query items else
      match split_ws query [] with
      | u :: n :: _ =>
          if eq_ci u (bstr "use"%string) && negb (eq_ci n (bstr "$current"%string))
          then ShOk (KUseSpace n) query items else ShOk KStandard query items
      | _ => ShOk KStandard query items
      end) = ShOk k query items).
  { rewrite andb_false_r. destruct (eq_ci query _); [eauto|]. destruct (_ && _); [eauto|]. destruct (split_ws query []) as [|u [|n l]]; eauto.
    destruct (_ && _); eauto. }
  rewrite andb_false_r in R. destruct R as (k & R). exists k, query, items. split; [exact R|]. split.
  { clear - F2 LE LL. revert vs F2 LE. induction items as [|i items IH]; intros vs F2 LE; [exists []; constructor|].
    inversion F2 as [|? v ? vs' T F2' E1 E2]; subst. inversion LE as [|? ? LE1 LE2]; subst. destruct (IH _ F2' LE2) as (es & F).
    destruct i as [n|z|w|s|b]; cbn [tok_of] in T.
    - exists ((x02 :: dec_u64 n ++ [LF]) :: es). constructor; [|exact F]. constructor. apply dec_u64_text. tauto.
    - destruct T.
    - exists ((x04 :: fmt w ++ [LF]) :: es). constructor; [|exact F]. constructor.
    - exists ((x06 :: dec_u64 (len s) ++ LF :: s) :: es). constructor; [|exact F]. constructor. apply dec_u64_text. unfold len in *. lia.
    - exists ((x05 :: dec_u64 (len b) ++ LF :: b) :: es). constructor; [|exact F]. constructor. apply dec_u64_text. unfold len in *. lia. }
  intros es F. set (val := value_of fmt).
  destruct (C35_leftover utf8_ok pf query ts0 (map val items) es []) as (tt & LX & C).
  - exact TK.
  - clear - F F2 LE LL FO. revert vs F2 LE. induction F as [|i e items es E F IH]; intros vs F2 LE; [constructor|].
    inversion F2 as [|? v ? vs' T F2' E1 E2]; subst. inversion LE as [|? ? LE1 LE2]; subst. cbn [map]. constructor; [|eapply IH; eassumption].
    split; [|exact E]. destruct i as [n|z|w|s|b]; cbn [val value_of tok_of pval_ok] in *.
    + tauto.
    + destruct T.
    + destruct LE1 as (s & P). destruct (FO s w P) as (X1 & X2 & X3 & X4). do 3 (split; [assumption|]). congruence.
    + unfold len in *. split; [lia|tauto].
    + unfold len in *. lia.
  - rewrite map_length. congruence.
  - rewrite app_nil_r in LX. rewrite LX. f_equal. rewrite <- FI. f_equal. clear - C F2 LE FO.
    revert tt vs F2 C LE. induction items as [|i items IH]; intros tt vs F2 C LE; inversion F2 as [|? v ? vs' T F2' E1 E2]; subst;
      inversion C as [|? t ? tt' C1 C2 E3 E4]; subst; [reflexivity|]. inversion LE as [|? ? LE1 LE2]; subst.
    f_equal; [|eapply IH; eassumption]. destruct i as [n|z|w|s|b]; cbn [val value_of tok_of carries] in *.
    + destruct T as [_ ->]. exact C1.
    + destruct T.
    + destruct LE1 as (s & P). destruct (FO s w P) as (X1 & X2 & X3 & X4). destruct C1 as (w' & P' & ->). congruence.
    + destruct T as [_ ->]. exact C1.
    + congruence.
Qed.

Lemma typed_arrives q r ts : typed pf false q r ts -> arrives pf q r ts ts.
Proof.
  induction 1 as [q|b q r ts B T IH|w q r t ts W E K T IH|s q r ts N SB T IH|ds q r ts ND A V NE NN T IH|ds q r ts F|
    ds es w q r ts ND A V ND2 A2 P NE NN T IH|quote s body q r ts Q ES U NB T IH|b q r ts F]; try (constructor; assumption); try discriminate F.
  - constructor; [|assumption]. intros I. cbn [In] in I. assert (s = SSub) as -> by (cbn [In] in N; intuition). destruct (SB eq_refl) as [X _]. discriminate X.
  - destruct NN as [X|NN]; [discriminate X|]. constructor; assumption.
  - destruct NN as [X|NN]; [discriminate X|]. constructor; assumption.
  - destruct NB as [X|NB]; [discriminate X|]. destruct (esc_kept _ _ _ ES) as (s' & K). pose proof (proj2 (kept_same _ _ _ _ ES K) NB) as ->.
    econstructor; eassumption.
Qed.
Lemma arrives_typed q r ts ts' : arrives pf q r ts ts' -> ts' = ts -> typed pf false q r ts.
Proof.
  induction 1 as [q|b q r ts ts' B T IH|w q r t ts ts' W E K T IH|s q r ts ts' N T IH|ds q r ts ts' ND A V NE NN T IH|
    ds es w q r ts ts' ND A V ND2 A2 P NE NN T IH|quote s s' body q r ts ts' Q ES U KP T IH|b q r ts ts' NB T IH]; intros EQ.
  - constructor.
  - constructor; auto.
  - injection EQ as EQ. constructor; auto.
  - injection EQ as EQ. cbn [In] in N. constructor; [cbn [In]; tauto| |auto]. intros ->. tauto.
  - injection EQ as EQ. apply TyUInt; auto.
  - injection EQ as EQ. apply TyFloat; auto.
  - injection EQ as EQ1 EQ. apply (kept_same _ _ _ _ ES KP) in EQ1. apply TyStr; auto.
  - exfalso. injection EQ as EQ1 EQ. apply (f_equal (@List.length byte)) in EQ1. rewrite app_length in EQ1. cbn in EQ1. lia.
Qed.

(** a step that works hands a later refusal on *)
Lemma refused_on lit q ts ts' f : arrives pf (lit ++ q) q ts ts' ->
  (forall fuel, (List.length q < fuel)%nat -> sh_loop pf fuel q = inr f) ->
  forall fuel, (List.length (lit ++ q) < fuel)%nat -> sh_loop pf fuel (lit ++ q) = inr f.
Proof.
  intros A H fuel LF. apply loop_arrives in A as (query & items & ts0 & vs & L & _). destruct (L fuel LF) as (fuel' & L' & ->).
  rewrite H by exact L'. reflexivity.
Qed.
Lemma until_escape_space q : (fst (until_escape (x20 :: q))) = x20 :: fst (until_escape q).
Proof. cbn [until_escape]. change (beq x20 x0a || beq x20 x09 || is_punct x20) with false. cbv iota. destruct (until_escape q). reflexivity. Qed.
Lemma until_escape_app es : forall q, all_digits es -> fst (until_escape (es ++ q)) = es ++ fst (until_escape q).
Proof.
  induction es as [|b es IH]; intros q A; [reflexivity|]. inversion A; subst. cbn [app until_escape]. rewrite digit_not_escape by assumption.
  specialize (IH q ltac:(assumption)). destruct (until_escape (es ++ q)). cbn [fst] in *. rewrite IH. reflexivity.
Qed.
Lemma read_float_space pre es q : (forall s w, pf s = Some w -> ~ In x20 s) -> all_digits es -> read_float pf pre (es ++ x20 :: q) = inr FFloat.
Proof.
  intros NS A. unfold read_float. pose proof (until_escape_app es (x20 :: q) A) as E. rewrite until_escape_space in E.
  destruct (until_escape (es ++ x20 :: q)) as [a r]. cbn [fst] in E. subst a. destruct (utf8_ok _); [|reflexivity].
  destruct (pf _) as [w|] eqn:P; [|reflexivity]. apply NS in P. exfalso. apply P. rewrite !in_app_iff. cbn [In]. auto.
Qed.

(** every line of the language arrives somehow or is refused *)
Lemma typed_or_refused q r ts : (forall s w, pf s = Some w -> ~ In x20 s) -> typed pf true q r ts ->
  (exists ts', arrives pf q r ts ts') \/ (exists f, forall fuel, (List.length q < fuel)%nat -> sh_loop pf fuel q = inr f).
Proof.
  intros NS. induction 1 as [q|b q r ts B T IH|w q r t ts W E K T IH|s q r ts N SB T IH|ds q r ts ND A V NE NN T IH|ds q r ts F ND A V NE T IH|
    ds es w q r ts ND A V ND2 A2 P NE NN T IH|quote s body q r ts Q ES U NB T IH|b q r ts F NB T IH].
  - left. exists []. constructor.
  - destruct IH as [(ts' & IH)|(f & IH)]; [left; exists ts'; constructor; assumption|right; exists f].
    apply (refused_on [b] q [] [] f); [|exact IH]. apply (ArBlank pf b q q); [exact B|constructor].
  - destruct IH as [(ts' & IH)|(f & IH)]; [left; exists (t :: ts'); constructor; assumption|right; exists f].
    apply (refused_on w q [t] [t] f); [|exact IH]. apply ArWord; auto. constructor.
  - assert (DS : s = SSub \/ s <> SSub) by (destruct s; (left; reflexivity) || (right; discriminate)). destruct DS as [->|NS'].
    { right. exists FSInt. intros [|fuel] LF; [lia|]. reflexivity. }
    assert (N' : ~ In s [SUnderscore; SQuoteS; SQuoteD; SAccent; SQuestion; SSub]) by (cbn [In] in *; intuition).
    destruct IH as [(ts' & IH)|(f & IH)]; [left; exists (TSym s :: ts'); constructor; assumption|right; exists f].
    apply (refused_on [sym_char s] q [TSym s] [TSym s] f); [|exact IH]. apply ArSym; [exact N'|constructor].
  - assert (D : not_next x0a q \/ exists q', q = x0a :: q').
    { destruct q as [|c q]; [left; exact I|]. destruct (beq c x0a) eqn:C; [apply beq_eq in C; subst; right; eauto|].
      left. cbn [not_next]. intros ->. discriminate C. }
    destruct D as [D|(q' & ->)].
    + destruct IH as [(ts' & IH)|(f & IH)]; [left; eexists; apply ArUInt; eassumption|right; exists f].
      eapply (refused_on ds q); [|exact IH]. apply ArUInt; auto. constructor.
    + right. exists FUInt. intros [|fuel] LF; [lia|]. destruct ds as [|b ds]; [congruence|]. cbn [app sh_loop].
      pose proof (Forall_inv A) as A1. assert (WS : word_start b = false) by (destruct b, A1 as [X Y]; vm_compute in X, Y; try congruence; reflexivity).
      rewrite WS, (digit_byte b A1). change (b :: ds ++ x0a :: q') with ((b :: ds) ++ x0a :: q'). rewrite read_uint_done by assumption. reflexivity.
  - right. exists FSInt. intros [|fuel] LF; [lia|]. reflexivity.
  - assert (D : not_next x20 q \/ exists q', q = x20 :: q').
    { destruct q as [|c q]; [left; exact I|]. destruct (beq c x20) eqn:C; [apply beq_eq in C; subst; right; eauto|].
      left. cbn [not_next]. intros ->. discriminate C. }
    destruct D as [D|(q' & ->)].
    + destruct IH as [(ts' & IH)|(f & IH)]; [left; eexists; apply ArFloat; eassumption|right; exists f].
      assert (EQ : ds ++ x2e :: es ++ q = (ds ++ x2e :: es) ++ q) by (rewrite <- app_assoc; reflexivity). rewrite EQ.
      eapply (refused_on _ q); [|exact IH]. rewrite <- EQ. eapply ArFloat; eauto. constructor.
    + right. exists FFloat. intros [|fuel] LF; [lia|]. destruct ds as [|b ds]; [congruence|]. cbn [app sh_loop].
      pose proof (Forall_inv A) as A1. assert (WS : word_start b = false) by (destruct b, A1 as [X Y]; vm_compute in X, Y; try congruence; reflexivity).
      rewrite WS, (digit_byte b A1). change (b :: ds ++ x2e :: es ++ x20 :: q') with ((b :: ds) ++ x2e :: es ++ x20 :: q').
      rewrite read_uint_done by assumption. cbn [read_uint]. change (is_digit x2e) with false. change (beq x2e x2e) with true. cbv iota.
      rewrite read_float_space by assumption. reflexivity.
  - destruct (esc_kept _ _ _ ES) as (s' & K).
    destruct IH as [(ts' & IH)|(f & IH)]; [left; eexists; eapply ArStr; eassumption|right; exists f].
    assert (EQ : quote :: body ++ quote :: q = (quote :: body ++ [quote]) ++ q) by (cbn [app]; rewrite <- app_assoc; reflexivity). rewrite EQ.
    eapply (refused_on _ q); [|exact IH]. rewrite <- EQ. eapply ArStr; eauto. constructor.
  - destruct IH as [(ts' & IH)|(f & IH)]; [left; eexists; eapply ArBin; eassumption|right; exists f].
    assert (EQ : x60 :: b ++ x60 :: q = (x60 :: b ++ [x60]) ++ q) by (cbn [app]; rewrite <- app_assoc; reflexivity). rewrite EQ.
    eapply (refused_on _ q); [|exact IH]. rewrite <- EQ. eapply ArBin; eauto. constructor.
Qed.

(** two readings of a line are the same *)
Lemma sent_det r ts ts' : sent pf fmt r ts -> sent pf fmt r ts' -> ts = ts'.
Proof.
  intros (k & query & ps & E & (es & X) & H) (k' & query' & ps' & E' & _ & H'). rewrite E in E'. injection E' as <- <- <-.
  specialize (H es X). specialize (H' es X). congruence.
Qed.

(** *** lines without literals *)
Definition plain (b : byte) : Prop := is_digit b = false /\ b <> x2d /\ b <> x22 /\ b <> x27 /\ b <> x60.
Lemma plain_step fuel b q : plain b -> exists w r, b :: q = w ++ r /\ w <> [] /\ sh_loop pf (S fuel) (b :: q) = sh_cons w [] (sh_loop pf fuel r).
Proof.
  intros (D & N1 & N2 & N3 & N4). cbn [sh_loop]. destruct (word_start b) eqn:WS.
  - destruct (scan_ident (b :: q)) as [w t] eqn:E. assert (WB : word_byte b = true) by (apply word_byte_iff, wstart_wbyte, word_start_iff; exact WS).
    pose proof E as E0. apply scan_ident_spec in E as (E & _). exists w, t. split; [exact E|]. split; [|reflexivity].
    intros ->. cbn [scan_ident] in E0. rewrite WB in E0. destruct (scan_ident q). discriminate E0.
  - exists [b], q. rewrite D, (beq_neq _ _ N1), (beq_neq _ _ N2), (beq_neq _ _ N3), (beq_neq _ _ N4). cbn [orb].
    split; [reflexivity|]. split; [discriminate|reflexivity].
Qed.
Lemma plain_loop n : forall q fuel, (List.length q <= n)%nat -> (n < fuel)%nat -> Forall plain q -> sh_loop pf fuel q = inl (q, []).
Proof.
  induction n as [|n IH]; intros q fuel L LF F; destruct fuel as [|fuel]; try lia.
  - destruct q; [reflexivity|cbn [List.length] in L; lia].
  - destruct q as [|b q]; [reflexivity|]. destruct (plain_step fuel b q (Forall_inv F)) as (w & r & E & NE & ->).
    rewrite E in F, L |- *. apply Forall_app in F as [_ F]. rewrite app_length in L. destruct w as [|x w]; [congruence|]. cbn [List.length] in L.
    rewrite (IH r fuel) by (assumption || lia). reflexivity.
Qed.
(** the text sent holds only bytes of the line and placeholders *)
Lemma loop_bytes : forall fuel q query ps, sh_loop pf fuel q = inl (query, ps) -> forall b, In b query -> b = x3f \/ In b q.
Proof.
  assert (SC : forall t x r query ps (P : bytes -> Prop), sh_cons t x r = inl (query, ps) -> exists q' l, r = inl (q', l) /\ query = t ++ q').
  { intros t x [[q' l]|f] query ps P E; cbn [sh_cons] in E; [injection E as <- <-; eauto|discriminate E]. }
  assert (UE : forall q a t, until_escape q = (a, t) -> exists c, q = c ++ t).
  { induction q as [|b q IH]; intros a t E; cbn [until_escape] in E; [injection E as <- <-; exists []; reflexivity|].
    destruct (beq b x0a || beq b x09 || is_punct b); [injection E as <- <-; exists []; reflexivity|].
    destruct (until_escape q) as [a' t']. injection E as <- <-. destruct (IH _ _ eq_refl) as (c & ->). exists (b :: c). reflexivity. }
  assert (RF : forall pre q i t, read_float pf pre q = inl (i, t) -> exists c, q = c ++ t).
  { intros pre q i t. unfold read_float. destruct (until_escape q) as [a t'] eqn:E. apply UE in E.
    destruct (utf8_ok (pre ++ a)); [|intros X; discriminate X]. destruct (pf (pre ++ a)); [|intros X; discriminate X]. intros X. injection X as <- <-. exact E. }
  assert (RU : forall q pre v i t, read_uint pf pre v q = inl (i, t) -> exists c, q = c ++ t).
  { induction q as [|b q IH]; intros pre v i t E; cbn [read_uint] in E; [injection E as <- <-; exists []; reflexivity|]. cbv zeta in E. destruct (is_digit b).
    - destruct (v * 10 + low4 b <? two64); [|discriminate E]. apply IH in E as (c & ->). exists (b :: c). reflexivity.
    - destruct (beq b x2e).
      + apply RF in E as (c & ->). exists (b :: c). reflexivity.
      + destruct (beq b x20 || beq b x09 || is_punct b); [|discriminate E]. injection E as <- <-. exists []. reflexivity. }
  assert (RS : forall quote n q s t, (List.length q <= n)%nat -> read_string quote q = inl (s, t) -> exists c, q = c ++ t).
  { intros quote. induction n as [|n IH]; intros q s t LQ E; destruct q as [|b q]; cbn [List.length] in LQ; try lia; cbn [read_string] in E; try discriminate E.
    destruct (beq b x5c).
    - destruct q as [|e q]; [discriminate E|]. destruct (beq e x5c || beq e quote); [|discriminate E]. cbn [List.length] in LQ.
      destruct (read_string quote q) as [[s0 t0]|f] eqn:R; [|discriminate E]. injection E as <- <-. destruct (IH q s0 t0 ltac:(lia) R) as (c & ->). exists (b :: e :: c). reflexivity.
    - destruct (beq b quote); [injection E as <- <-; exists [b]; reflexivity|].
      destruct (read_string quote q) as [[s0 t0]|f] eqn:R; [|discriminate E]. injection E as <- <-. destruct (IH q s0 t0 ltac:(lia) R) as (c & ->). exists (b :: c). reflexivity. }
  assert (RB : forall q s t, read_binary q = inl (s, t) -> exists c, q = c ++ t).
  { induction q as [|b q IH]; intros s t E; cbn [read_binary] in E; [discriminate E|]. destruct (beq b x60); [injection E as <- <-; exists [b]; reflexivity|].
    destruct (read_binary q) as [[s0 t0]|f] eqn:R; [|discriminate E]. injection E as <- <-. destruct (IH _ _ eq_refl) as (c & ->). exists (b :: c). reflexivity. }
  induction fuel as [|fuel IH]; intros q query ps E; [discriminate E|]. destruct q as [|b q]; [injection E as <- <-; intros x []|].
  cbn [sh_loop] in E.
  assert (GO : forall w x t c, sh_cons w x (sh_loop pf fuel t) = inl (query, ps) -> b :: q = c ++ t -> (forall y, In y w -> y = x3f \/ In y (b :: q)) ->
    forall y, In y query -> y = x3f \/ In y (b :: q)).
  { intros w x t c E' EC HW y I. apply SC in E' as (q' & l & E' & ->); [|exact (fun _ => True)]. apply in_app_iff in I as [I|I]; [auto|].
    destruct (IH t q' l E' y I) as [X|X]; [auto|]. right. rewrite EC. apply in_or_app. auto. }
  assert (Q : forall y, In y [x3f] -> y = x3f \/ In y (b :: q)) by (intros y [<-|[]]; auto).
  destruct (word_start b) eqn:WS.
  { destruct (scan_ident (b :: q)) as [w t] eqn:SI. apply scan_ident_spec in SI as (SI & _). eapply GO; [exact E|exact SI|]. intros y I. right. rewrite SI. apply in_or_app. auto. }
  destruct (is_digit b).
  { destruct (read_uint pf [] 0 (b :: q)) as [[i t]|f] eqn:R; [|discriminate E]. apply RU in R as (c & R). eapply GO; [exact E|exact R|exact Q]. }
  destruct (beq b x2d).
  { destruct (read_sint (b :: q)) as [[i t]|f] eqn:R; [|discriminate E]. unfold read_sint in R. destruct (until_escape (b :: q)) as [a t'] eqn:U. apply UE in U as (c & U).
    destruct (utf8_ok a); [|discriminate R]. destruct (parse_i64 a); [|discriminate R]. injection R as <- <-. eapply GO; [exact E|exact U|exact Q]. }
  destruct (beq b x22 || beq b x27).
  { destruct (read_string b q) as [[s0 t]|f] eqn:R; [|discriminate E]. apply (RS b (List.length q)) in R as (c & R); [|lia].
    destruct (utf8_ok s0); [|discriminate E]. eapply (GO _ _ _ (b :: c)); [exact E|rewrite R; reflexivity|exact Q]. }
  destruct (beq b x60).
  { destruct (read_binary q) as [[s0 t]|f] eqn:R; [|discriminate E]. apply RB in R as (c & R). eapply (GO _ _ _ (b :: c)); [exact E|rewrite R; reflexivity|exact Q]. }
  eapply (GO [b] [] q [b]); [exact E|reflexivity|]. intros y [<-|[]]. right. left. reflexivity.
Qed.
End Loop.

Lemma text_no_literal q ts : toks q ts -> forall l, In (TLit l) ts -> exists b, l = LBool b.
Proof.
  induction 1 as [|b q ts B T IH|w q t ts W E K T IH|s q ts N T IH]; intros l I; cbn [In] in I; [destruct I|auto| |].
  - destruct I as [-> |I]; [|auto]. inversion K; eauto.
  - destruct I as [I|I]; [discriminate I|auto].
Qed.
