From Coq Require Import Strings.String List NArith ZArith Bool Lia.
From Verif Require Import Bytes NumModel NumProofs PrintModel PrintSpec.
Import ListNotations.
Local Open Scope N_scope.

(** what follows a value in a row or a list, or at the end of the line *)
Definition delim (b : byte) : Prop := b = x2c \/ b = x5d \/ b = x29 \/ b = LF.
Definition ends (k : bytes) : Prop := match k with [] => False | b :: _ => delim b end.

Lemma span_uniq a : forall b k k', Forall (fun c => ~ delim c) a -> Forall (fun c => ~ delim c) b -> ends k -> ends k' ->
  a ++ k = b ++ k' -> a = b /\ k = k'.
Proof.
  induction a as [|x a IH]; intros b k k' A B K K' E.
  - destruct b as [|y b]; [auto|]. cbn [app] in E. subst k. inversion B; subst. cbn [ends] in K. contradiction.
  - inversion A; subst. destruct b as [|y b]; [cbn [app] in E; subst k'; cbn [ends] in K'; contradiction|]. inversion B; subst.
    cbn [app] in E. injection E as -> E. destruct (IH b k k') as [-> ->]; auto.
Qed.
Lemma not_delim c : beq c x2c || beq c x5d || beq c x29 || beq c LF = false -> ~ delim c.
Proof. intros H [-> | [-> | [-> | ->]]]; discriminate H. Qed.
Lemma digits_nd s : all_digits s -> Forall (fun c => ~ delim c) s.
Proof.
  intros A. eapply Forall_impl; [|exact A]. cbv beta. intros c D. apply not_delim. destruct c; destruct D as [X Y]; vm_compute in X, Y; try congruence; reflexivity.
Qed.
Lemma dec_inj a b : a < two64 -> b < two64 -> dec_u64 a = dec_u64 b -> a = b.
Proof.
  intros A B E. destruct (dec_u64_text a A) as (_ & _ & X & _). destruct (dec_u64_text b B) as (_ & _ & Y & _). congruence.
Qed.
Lemma dec_head n : n < two64 -> exists c r, dec_u64 n = c :: r /\ 48 <= b2n c <= 57.
Proof.
  intros H. destruct (dec_u64_text n H) as (NE & D & _). destruct (dec_u64 n) as [|c r]; [congruence|]. inversion D; subst. eauto.
Qed.
Lemma byte_lt64 b : b2n b < two64.
Proof. destruct b; reflexivity. Qed.

(** the elements of a list, closed by a bracket *)
Section Commas.
Variable A : Type.
Variable p : A -> bytes.
Variable P : A -> Prop.
Variable close : byte.
Hypothesis close_d : close = x5d \/ close = x29.
Hypothesis uniq : forall a b k k', P a -> P b -> ends k -> ends k' -> p a ++ k = p b ++ k' -> a = b /\ k = k'.
Hypothesis start : forall a, P a -> exists c r, p a = c :: r /\ c <> close.

Lemma commas_cons a b r : commas (map p (a :: b :: r)) = p a ++ x2c :: x20 :: commas (map p (b :: r)).
Proof. reflexivity. Qed.
Lemma ends_close k : ends (close :: k).
Proof. destruct close_d as [-> | ->]; cbn; unfold delim; auto. Qed.
Lemma commas_uniq l : forall l' k k', Forall P l -> Forall P l' ->
  commas (map p l) ++ close :: k = commas (map p l') ++ close :: k' -> l = l' /\ k = k'.
Proof.
  induction l as [|a l IH]; intros l' k k' F F' E.
  - destruct l' as [|b l']; [cbn [map commas app] in E; injection E as ->; auto|]. exfalso. inversion F'; subst.
    destruct (start b) as (c & r & S & N); [assumption|]. destruct l' as [|b' l'].
    + cbn [map commas app] in E. rewrite S in E. cbn [app] in E. injection E as -> _. congruence.
    + rewrite commas_cons, S in E. cbn [map commas app] in E. injection E as -> _. congruence.
  - inversion F as [|? ? Pa Fl]; subst. destruct l' as [|b l'].
    + exfalso. destruct (start a Pa) as (c & r & S & N). destruct l as [|a' l].
      * cbn [map commas app] in E. rewrite S in E. cbn [app] in E. injection E as -> _. congruence.
      * rewrite commas_cons, S in E. cbn [map commas app] in E. injection E as -> _. congruence.
    + inversion F' as [|? ? Pb Fl']; subst.
      assert (D2 : forall x, ends (x2c :: x)) by (intros x; left; reflexivity).
      assert (NC : close <> x2c) by (destruct close_d as [-> | ->]; discriminate).
      destruct l as [|a' l], l' as [|b' l'].
      * cbn [map commas] in E. destruct (uniq a b _ _ Pa Pb (ends_close _) (ends_close _) E) as [-> X]. injection X as ->. auto.
      * rewrite commas_cons, <- app_assoc in E. cbn [map commas] in E. destruct (uniq a b _ _ Pa Pb (ends_close _) (D2 _) E) as [_ X].
        cbn [app] in X. injection X as X _. congruence.
      * rewrite commas_cons, <- app_assoc in E. cbn [map commas] in E. destruct (uniq a b _ _ Pa Pb (D2 _) (ends_close _) E) as [_ X].
        cbn [app] in X. injection X as X _. congruence.
      * rewrite !commas_cons, <- !app_assoc in E. destruct (uniq a b _ _ Pa Pb (D2 _) (D2 _) E) as [-> X]. cbn [app] in X.
        injection X as X. destruct (IH (b' :: l') k k' Fl Fl' X) as [-> ->]. auto.
Qed.
End Commas.

Section Uniq.
Variable f32 f64 : N -> bytes.
Variable sty : bytes -> bytes.
Variable fok32 fok64 : N -> Prop.
Hypothesis F32 : float_text fok32 f32.
Hypothesis F64 : float_text fok64 f64.
Hypothesis STY : style_ok sty.
Notation sok := (fun s : bytes => ~ In x5c s).
Notation pv := (print_value f32 f64 sty false true).

Lemma char_uniq s : forall s' k k', ~ In x5c s -> ~ In x5c s' ->
  concat (map print_char s) ++ x22 :: k = concat (map print_char s') ++ x22 :: k' -> s = s' /\ k = k'.
Proof.
  assert (H : forall c, c <> x5c -> (c = x22 /\ print_char c = [x5c; x22]) \/ (c = x09 /\ print_char c = [x5c; x74]) \/
    (c = x0a /\ print_char c = [x5c; x6e]) \/ (c <> x22 /\ c <> x09 /\ c <> x0a /\ print_char c = [c])).
  { intros c N. unfold print_char. destruct (beq c x22) eqn:E1; [apply beq_eq in E1; subst; auto|].
    destruct (beq c x09) eqn:E2; [apply beq_eq in E2; subst; auto|]. destruct (beq c x0a) eqn:E3; [apply beq_eq in E3; subst; auto|].
    right. right. right. repeat split; intros ->; discriminate. }
  induction s as [|c s IH]; intros s' k k' N N' E.
  - destruct s' as [|c' s']; [cbn in E; injection E as ->; auto|]. exfalso. cbn [In] in N'. cbn [map concat app] in E.
    destruct (H c') as [[_ X]|[[_ X]|[[_ X]|(X1 & X2 & X3 & X)]]]; [tauto| | | |]; rewrite X in E; cbn [app] in E; injection E as E _; congruence.
  - cbn [In] in N. destruct s' as [|c' s'].
    + exfalso. cbn [map concat app] in E.
      destruct (H c) as [[_ X]|[[_ X]|[[_ X]|(X1 & X2 & X3 & X)]]]; [tauto| | | |]; rewrite X in E; cbn [app] in E; injection E as E _; congruence.
    + cbn [In] in N'. cbn [map concat] in E. rewrite <- !app_assoc in E.
      assert (G : c = c' /\ concat (map print_char s) ++ x22 :: k = concat (map print_char s') ++ x22 :: k').
      { destruct (H c) as [[-> X]|[[-> X]|[[-> X]|(X1 & X2 & X3 & X)]]]; [tauto| | | |]; rewrite X in E;
          (destruct (H c') as [[-> Y]|[[-> Y]|[[-> Y]|(Y1 & Y2 & Y3 & Y)]]]; [tauto| | | |]); rewrite Y in E; cbn [app] in E;
          try (injection E as E; auto; fail); try (injection E as E1 E2; (discriminate || (subst; tauto))).
        }
      destruct G as [-> G]. destruct (IH s' k k') as [-> ->]; auto.
Qed.

(** a value of the type, followed by a delimiter, is read back *)
Lemma float_nd fok f w : float_text fok f -> fok w -> Forall (fun c => ~ delim c) (f w) /\ exists c r, f w = c :: r /\ c <> x1b /\ c <> x5d /\ c <> x29.
Proof.
  intros [_ H] W. destruct (H w W) as [NE F]. assert (X : forall c, c = x2d \/ c = x2e \/ 48 <= b2n c <= 57 \/ 65 <= b2n c <= 90 \/ 97 <= b2n c <= 122 -> beq c x2c || beq c x5d || beq c x29 || beq c LF || beq c x1b = false).
  { intros c D. destruct c; try reflexivity; exfalso; destruct D as [D|[D|[D|[D|D]]]]; try discriminate D; destruct D as [D1 D2]; vm_compute in D1, D2; congruence. }
  split.
  - eapply Forall_impl; [|exact F]. intros c D. apply X in D. apply orb_false_iff in D as [D _]. apply not_delim. exact D.
  - destruct (f w) as [|c r]; [congruence|]. inversion F; subst. exists c, r. split; [reflexivity|]. specialize (X c ltac:(assumption)).
    repeat split; intros ->; discriminate X.
Qed.
Lemma type_head t v : of_type fok32 fok64 sok t v -> exists c r, pv v = c :: r /\ c <> x1b /\ c <> x5d /\ c <> x29.
Proof.
  assert (DG : forall c, 48 <= b2n c <= 57 -> c <> x1b /\ c <> x5d /\ c <> x29).
  { intros c [A B]. repeat split; intros ->; vm_compute in A, B; congruence. }
  intros O. destruct O as [b|n H|z H|w H|w H|s H|b|t l H]; cbn [print_value].
  - destruct b; do 2 eexists; (split; [reflexivity|repeat split; discriminate]).
  - destruct (dec_head n H) as (c & r & E & D). exists c, r. split; [exact E|]. auto.
  - destruct (z <? 0)%Z.
    + do 2 eexists. split; [reflexivity|repeat split; discriminate].
    + destruct (dec_head (Z.to_N z)) as (c & r & E & D); [unfold two64; lia|]. exists c, r. split; [exact E|]. auto.
  - apply (float_nd _ _ _ F32 H).
  - apply (float_nd _ _ _ F64 H).
  - do 2 eexists. split; [reflexivity|repeat split; discriminate].
  - do 2 eexists. split; [reflexivity|repeat split; discriminate].
  - do 2 eexists. split; [reflexivity|repeat split; discriminate].
Qed.
Lemma sint_nd z : (-9223372036854775808 <= z < 9223372036854775808)%Z -> Forall (fun c => ~ delim c) (pv (VSInt z)).
Proof.
  intros H. cbn [print_value]. destruct (z <? 0)%Z eqn:S.
  - constructor; [apply not_delim; reflexivity|]. apply digits_nd. apply dec_u64_text. unfold two64. lia.
  - apply digits_nd. apply dec_u64_text. unfold two64. lia.
Qed.
Lemma sint_inj a b : (-9223372036854775808 <= a < 9223372036854775808)%Z -> (-9223372036854775808 <= b < 9223372036854775808)%Z ->
  pv (VSInt a) = pv (VSInt b) -> a = b.
Proof.
  intros A B. cbn [print_value]. destruct (a <? 0)%Z eqn:SA, (b <? 0)%Z eqn:SB; intros E.
  - injection E as E. apply dec_inj in E; unfold two64 in *; lia.
  - destruct (dec_head (Z.to_N b)) as (c & r & X & D); [unfold two64; lia|]. rewrite X in E. injection E as <- _. vm_compute in D. destruct D. congruence.
  - destruct (dec_head (Z.to_N a)) as (c & r & X & D); [unfold two64; lia|]. rewrite X in E. injection E as -> _. vm_compute in D. destruct D. congruence.
  - apply dec_inj in E; unfold two64 in *; lia.
Qed.
Lemma type_uniq t : forall v w k k', of_type fok32 fok64 sok t v -> of_type fok32 fok64 sok t w -> ends k -> ends k' ->
  pv v ++ k = pv w ++ k' -> v = w /\ k = k'.
Proof.
  induction t as [| | | | | | |t IH]; intros v w k k' V W K K' E; inversion V; subst; inversion W; subst.
  - assert (X : forall b : bool, Forall (fun c => ~ delim c) (pv (VBool b))) by (intros []; repeat (constructor; [apply not_delim; reflexivity|]); constructor).
    destruct (span_uniq _ _ _ _ (X b) (X b0) K K' E) as [Y ->]. destruct b, b0; auto; discriminate Y.
  - destruct (span_uniq _ _ _ _ (digits_nd _ (proj1 (proj2 (dec_u64_text _ H)))) (digits_nd _ (proj1 (proj2 (dec_u64_text _ H0)))) K K' E) as [Y ->].
    apply dec_inj in Y; [subst; auto|assumption|assumption].
  - destruct (span_uniq _ _ _ _ (sint_nd _ H) (sint_nd _ H0) K K' E) as [Y ->]. apply sint_inj in Y; [subst; auto|assumption|assumption].
  - destruct (float_nd _ _ _ F32 H) as [A _]. destruct (float_nd _ _ _ F32 H0) as [B _]. destruct (span_uniq _ _ _ _ A B K K' E) as [Y ->].
    apply (proj1 F32) in Y; [subst; auto|assumption|assumption].
  - destruct (float_nd _ _ _ F64 H) as [A _]. destruct (float_nd _ _ _ F64 H0) as [B _]. destruct (span_uniq _ _ _ _ A B K K' E) as [Y ->].
    apply (proj1 F64) in Y; [subst; auto|assumption|assumption].
  - cbn [print_value print_string negb] in E. change (bstr """"%string) with [x22] in E. cbn [app] in E. injection E as E.
    rewrite <- !app_assoc in E. destruct (char_uniq _ _ _ _ H H0 E) as [-> ->]. auto.
  - cbn [print_value] in E. unfold print_binary in E. change (bstr "["%string) with [x5b] in E. change (bstr "]"%string) with [x5d] in E.
    cbn [app] in E. injection E as E. rewrite <- !app_assoc in E. cbn [app] in E.
    apply (commas_uniq byte (fun x => dec_u64 (b2n x)) (fun _ => True) x5d) in E; auto.
    + destruct E as [-> ->]. auto.
    + intros a c q q' _ _ Q Q' X. destruct (span_uniq _ _ _ _ (digits_nd _ (proj1 (proj2 (dec_u64_text _ (byte_lt64 a))))) (digits_nd _ (proj1 (proj2 (dec_u64_text _ (byte_lt64 c))))) Q Q' X) as [Y ->].
      apply dec_inj in Y; [|apply byte_lt64|apply byte_lt64]. split; [|reflexivity]. rewrite <- (n2b_b2n a), <- (n2b_b2n c). congruence.
    + intros a _. destruct (dec_head _ (byte_lt64 a)) as (c & r & X & D). exists c, r. split; [exact X|]. intros ->. vm_compute in D. destruct D. congruence.
    + apply Forall_forall. auto.
    + apply Forall_forall. auto.
  - cbn [print_value] in E. change (bstr "["%string) with [x5b] in E. change (bstr "]"%string) with [x5d] in E.
    cbn [app] in E. injection E as E. rewrite <- !app_assoc in E. cbn [app] in E.
    apply (commas_uniq value (print_value f32 f64 sty false true) (of_type fok32 fok64 sok t) x5d) in E; auto.
    + destruct E as [-> ->]. auto.
    + intros a O. destruct (type_head _ _ O) as (c & r & X & _ & N & _). eauto.
Qed.
Lemma column_uniq t v w k k' : of_column fok32 fok64 sok t v -> of_column fok32 fok64 sok t w -> ends k -> ends k' ->
  pv v ++ k = pv w ++ k' -> v = w /\ k = k'.
Proof.
  destruct STY as [S1 S2]. assert (NB : ~ In x1b (bstr "null"%string)) by (vm_compute; intuition discriminate).
  assert (NH : exists r, pv VNull = x1b :: r).
  { cbn [print_value]. destruct (S1 (bstr "null"%string)) as (r & ->). eexists. reflexivity. }
  intros [-> |V] [-> |W] K K' E.
  - split; [reflexivity|]. cbn [print_value] in E. rewrite <- !app_assoc in E. apply S2 in E; [|exact NB|exact NB]. destruct E as [_ E]. injection E as ->. reflexivity.
  - exfalso. destruct (type_head _ _ W) as (c & r & X & N & _). destruct NH as (r' & Y). rewrite X, Y in E. injection E as <- _. congruence.
  - exfalso. destruct (type_head _ _ V) as (c & r & X & N & _). destruct NH as (r' & Y). rewrite X, Y in E. injection E as -> _. congruence.
  - eapply type_uniq; eassumption.
Qed.
Lemma column_head t v : of_column fok32 fok64 sok t v -> exists c r, pv v = c :: r /\ c <> x29.
Proof.
  intros [-> |V].
  - cbn [print_value]. destruct STY as [S1 _]. destruct (S1 (bstr "null"%string)) as (r & ->). do 2 eexists. split; [reflexivity|discriminate].
  - destruct (type_head _ _ V) as (c & r & X & _ & _ & N). eauto.
Qed.

(** rows *)
Lemma cells_uniq tys : forall r r' k k', Forall2 (of_column fok32 fok64 sok) tys r -> Forall2 (of_column fok32 fok64 sok) tys r' ->
  commas (map pv r) ++ x29 :: k = commas (map pv r') ++ x29 :: k' -> r = r' /\ k = k'.
Proof.
  induction tys as [|t tys IH]; intros r r' k k' F F' E; inversion F as [|? v ? rs O F2]; subst; inversion F' as [|? w ? rs' O' F2']; subst.
  - cbn [map commas app] in E. injection E as ->. auto.
  - assert (D2 : forall x, ends (x2c :: x)) by (intros x; left; reflexivity). assert (D9 : forall x, ends (x29 :: x)) by (intros x; right; right; left; reflexivity).
    destruct rs as [|v' rs], rs' as [|w' rs'].
    + cbn [map commas] in E. destruct (column_uniq t v w _ _ O O' (D9 _) (D9 _) E) as [-> X]. injection X as ->. auto.
    + exfalso. inversion F2; subst. inversion F2'.
    + exfalso. inversion F2; subst. inversion F2'.
    + rewrite !commas_cons, <- !app_assoc in E. destruct (column_uniq t v w _ _ O O' (D2 _) (D2 _) E) as [-> X]. cbn [app] in X. injection X as X.
      destruct (IH _ _ _ _ F2 F2' X) as [-> ->]. auto.
Qed.
Lemma row_uniq tys r r' k k' : Forall2 (of_column fok32 fok64 sok) tys r -> Forall2 (of_column fok32 fok64 sok) tys r' ->
  print_row f32 f64 sty true r ++ k = print_row f32 f64 sty true r' ++ k' -> r = r' /\ k = k'.
Proof.
  intros F F' E. unfold print_row in E. change (bstr "("%string) with [x28] in E. change (bstr ")"%string) with [x29] in E. cbn [app] in E.
  injection E as E. rewrite <- !app_assoc in E. cbn [app] in E. eapply cells_uniq; eassumption.
Qed.
Lemma rows_uniq tys rs : forall rs' i, Forall (Forall2 (of_column fok32 fok64 sok) tys) rs -> Forall (Forall2 (of_column fok32 fok64 sok) tys) rs' ->
  print_rows f32 f64 sty true i rs = print_rows f32 f64 sty true i rs' -> rs = rs'.
Proof.
  destruct STY as [S1 S2]. induction rs as [|r rs IH]; intros rs' i F F' E.
  - destruct rs' as [|r' rs']; [reflexivity|]. cbn [print_rows] in E. destruct (S1 (bstr "("%string ++ dec_u64 i ++ bstr ")"%string)) as (x & X). rewrite X in E. discriminate E.
  - destruct rs' as [|r' rs'].
    + cbn [print_rows] in E. destruct (S1 (bstr "("%string ++ dec_u64 i ++ bstr ")"%string)) as (x & X). rewrite X in E. discriminate E.
    + cbn [print_rows] in E. apply app_inv_head in E. inversion F; subst. inversion F'; subst.
      apply (row_uniq tys) in E as [-> E]; [|assumption|assumption]. injection E as E. f_equal. eapply IH; eassumption.
Qed.
End Uniq.
