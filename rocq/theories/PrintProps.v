(** C87: what the shell prints tells answers apart. *)
From Coq Require Import Strings.String List NArith ZArith Bool Lia.
From Verif Require Import Bytes NumModel NumProofs PrintModel PrintSpec PrintProofs.
Import ListNotations.
Local Open Scope N_scope.

(** C87, the part that holds: at the interactive shell, two different answers with the same columns are
    printed differently as long as no string has a backslash. Missing: strings with backslashes, see
    [C87_backslash]; queries given on the command line, see [C87_command_line_refuted]. *)
Theorem C87_told_apart_partial f32 f64 sty okay red fok32 fok64 tys special r r' :
  float_text fok32 f32 -> float_text fok64 f64 -> styles_ok [sty; okay; red] ->
  answer (fun v t => of_column fok32 fok64 (fun s => ~ In x5c s) t v) tys r ->
  answer (fun v t => of_column fok32 fok64 (fun s => ~ In x5c s) t v) tys r' ->
  format_response f32 f64 sty okay red special true r = format_response f32 f64 sty okay red special true r' -> r = r'.
Proof.
  intros F32 F64 ST A B E.
  assert (S : style_ok sty) by (apply (ST sty sty); left; reflexivity).
  assert (IO : In okay [sty; okay; red]) by (cbn; auto). assert (IR : In red [sty; okay; red]) by (cbn; auto). assert (IS : In sty [sty; okay; red]) by (cbn; auto).
  assert (FL : forall r0, Forall2 (fun v t => of_column fok32 fok64 (fun s => ~ In x5c s) t v) r0 tys -> Forall2 (of_column fok32 fok64 (fun s => ~ In x5c s)) tys r0).
  { intros r0 H. clear - H. induction H; constructor; auto. }
  assert (NE : forall e, e < two64 -> ~ In x1b (bstr "(server error code: "%string ++ dec_u64 e ++ bstr ")"%string)).
  { intros e L I. rewrite !in_app_iff in I. destruct I as [I|[I|I]].
    - vm_compute in I. intuition discriminate.
    - destruct (dec_u64_text e L) as (_ & D & _). unfold all_digits in D. rewrite Forall_forall in D. apply D in I. vm_compute in I. destruct I. congruence.
    - vm_compute in I. intuition discriminate. }
  assert (N1 : ~ In x1b (bstr "("%string ++ dec_u64 1 ++ bstr ")"%string)) by (vm_compute; intuition discriminate).
  assert (N0 : ~ In x1b (bstr "[0 rows returned]"%string)) by (vm_compute; intuition discriminate).
  assert (NO : ~ In x1b (bstr "(Okay)"%string)) by (vm_compute; intuition discriminate).
  assert (X : forall f g a b k k', In f [sty; okay; red] -> In g [sty; okay; red] -> ~ In x1b a -> ~ In x1b b -> f a ++ k = g b ++ k' -> a = b /\ k = k').
  { intros f g a b k k' If Ig. apply (proj2 (ST f g If Ig)). }
  assert (H : forall f a k, In f [sty; okay; red] -> forall r0 k', f a ++ k <> print_row f32 f64 sty true r0 ++ k').
  { intros f a k If r0 k' Q. destruct (proj1 (ST f f If If) a) as (t & T). rewrite T in Q. discriminate Q. }
  assert (RN : forall rs, print_rows f32 f64 sty true 1 rs <> [] -> exists k, print_rows f32 f64 sty true 1 rs = sty (bstr "("%string ++ dec_u64 1 ++ bstr ")"%string) ++ k).
  { intros [|r0 rs] N; [contradiction|]. cbn [print_rows]. eexists. reflexivity. }
  assert (RF : forall rs, exists a k, format_response f32 f64 sty okay red special true (RsRows rs) = sty a ++ k /\ ~ In x1b a /\
     ((rs = [] /\ a = bstr "[0 rows returned]"%string) \/ (rs <> [] /\ a = bstr "("%string ++ dec_u64 1 ++ bstr ")"%string))).
  { intros [|r0 rs].
    - do 2 eexists. split; [reflexivity|]. split; [exact N0|]. auto.
    - do 2 eexists. split; [reflexivity|]. split; [exact N1|]. right. split; [discriminate|reflexivity]. }
  assert (EO : forall e, e < two64 -> bstr "(server error code: "%string ++ dec_u64 e ++ bstr ")"%string <> bstr "(Okay)"%string) by (intros e _ Q; discriminate Q).
  destruct A as [|e L|r0 F|rs F], B as [|e' L'|r0' F'|rs' F'].
  - reflexivity.
  - exfalso. cbn [format_response] in E. apply (X okay red) in E; auto. destruct E as [E _]. discriminate E.
  - exfalso. cbn [format_response] in E. eapply H; [|exact E]. exact IO.
  - exfalso. destruct (RF rs') as (a & k & RE & NA & D). rewrite RE in E. cbn [format_response] in E. apply (X okay sty) in E; auto. destruct E as [E _]. subst a.
    destruct D as [[_ D]|[_ D]]; discriminate D.
  - exfalso. cbn [format_response] in E. apply (X red okay) in E; auto. destruct E as [E _]. discriminate E.
  - cbn [format_response] in E. apply (X red red) in E; auto. destruct E as [E _]. apply app_inv_head in E. apply app_inv_tail in E.
    apply dec_inj in E; auto. congruence.
  - exfalso. cbn [format_response] in E. eapply H; [|exact E]. exact IR.
  - exfalso. destruct (RF rs') as (a & k & RE & NA & D). rewrite RE in E. cbn [format_response] in E. apply (X red sty) in E; auto. destruct E as [E _]. subst a.
    destruct D as [[_ D]|[_ D]]; discriminate D.
  - exfalso. cbn [format_response] in E. symmetry in E. eapply H; [|exact E]. exact IO.
  - exfalso. cbn [format_response] in E. symmetry in E. eapply H; [|exact E]. exact IR.
  - cbn [format_response] in E. apply (row_uniq f32 f64 sty fok32 fok64 F32 F64 S tys) in E; auto. destruct E as [-> _]. reflexivity.
  - exfalso. destruct (RF rs') as (a & k & RE & NA & D). rewrite RE in E. cbn [format_response] in E. symmetry in E. eapply H; [|exact E]. exact IS.
  - exfalso. destruct (RF rs) as (a & k & RE & NA & D). rewrite RE in E. cbn [format_response] in E. apply (X sty okay) in E; auto. destruct E as [E _]. subst a.
    destruct D as [[_ D]|[_ D]]; discriminate D.
  - exfalso. destruct (RF rs) as (a & k & RE & NA & D). rewrite RE in E. cbn [format_response] in E. apply (X sty red) in E; auto. destruct E as [E _]. subst a.
    destruct D as [[_ D]|[_ D]]; discriminate D.
  - exfalso. destruct (RF rs) as (a & k & RE & NA & D). rewrite RE in E. cbn [format_response] in E. eapply H; [|exact E]. exact IS.
  - assert (NR : forall rs0, rs0 <> [] -> format_response f32 f64 sty okay red special true (RsRows rs0) = print_rows f32 f64 sty true 1 rs0).
    { intros [|x rs0] N; [contradiction|reflexivity]. }
    destruct (RF rs) as (a & k & RE & NA & D). destruct (RF rs') as (a' & k' & RE' & NA' & D'). pose proof E as E0. rewrite RE, RE' in E0.
    apply (X sty sty) in E0; auto. destruct E0 as [E0 _]. subst a'.
    destruct D as [[-> D]|[D1 D]], D' as [[-> D']|[D1' D']]; subst a; try discriminate D'; [reflexivity|].
    rewrite (NR _ D1), (NR _ D1') in E. f_equal. eapply rows_uniq; [exact F32|exact F64|exact S| | |exact E].
    + eapply Forall_impl; [|exact F]. intros r0 Q. exact (FL _ Q).
    + eapply Forall_impl; [|exact F']. intros r0 Q. exact (FL _ Q).
Qed.

(** C87. A tab is printed as a backslash and a t, a line feed as a backslash and an n, and the backslash
    as itself: the two strings of each pair cannot be told apart, whatever else is in the row. *)
Theorem C87_backslash f32 f64 sty before after a b :
  print_row f32 f64 sty true (before ++ VStr (a ++ x09 :: b) :: after) = print_row f32 f64 sty true (before ++ VStr (a ++ bstr "\t"%string ++ b) :: after) /\
  print_row f32 f64 sty true (before ++ VStr (a ++ x0a :: b) :: after) = print_row f32 f64 sty true (before ++ VStr (a ++ bstr "\n"%string ++ b) :: after).
Proof.
  assert (E1 : print_value f32 f64 sty false true (VStr (a ++ x09 :: b)) = print_value f32 f64 sty false true (VStr (a ++ bstr "\t"%string ++ b))).
  { cbn [print_value print_string negb]. rewrite !map_app. rewrite !concat_app. reflexivity. }
  assert (E2 : print_value f32 f64 sty false true (VStr (a ++ x0a :: b)) = print_value f32 f64 sty false true (VStr (a ++ bstr "\n"%string ++ b))).
  { cbn [print_value print_string negb]. rewrite !map_app. rewrite !concat_app. reflexivity. }
  unfold print_row. rewrite !map_app. cbn [map]. rewrite E1, E2. split; reflexivity.
Qed.

(** *** examples *)
(** floats as in the examples: the two whose bits are 1 and 2; styles of the terminal *)
Definition ex_fok (w : N) : Prop := w = 1 \/ w = 2.
Definition ex_f (w : N) : bytes := if w =? 1 then bstr "1.5"%string else bstr "-0.25"%string.
Definition ex_style (code : byte) (s : bytes) : bytes := [x1b; x5b; code; x6d] ++ s ++ [x1b; x5b; x30; x6d].
Example C87_ex_float : float_text ex_fok ex_f.
Proof.
  split.
  - intros a b [-> | ->] [-> | ->] E; auto; vm_compute in E; discriminate E.
  - assert (D : forall s, forallb (fun c => beq c x2d || beq c x2e || is_digit c) s = true ->
      Forall (fun c => c = x2d \/ c = x2e \/ 48 <= b2n c <= 57 \/ 65 <= b2n c <= 90 \/ 97 <= b2n c <= 122) s).
    { intros s H. apply Forall_forall. intros c I. rewrite forallb_forall in H. specialize (H c I). rewrite !orb_true_iff in H.
      destruct H as [[H|H]|H]; [apply beq_eq in H; auto|apply beq_eq in H; auto|]. apply is_digit_iff in H. right. right. left. exact H. }
    intros w [-> | ->]; (split; [discriminate|]); apply D; reflexivity.
Qed.
Lemma esc_span a : forall b k k', ~ In x1b a -> ~ In x1b b -> a ++ x1b :: k = b ++ x1b :: k' -> a = b /\ k = k'.
Proof.
  induction a as [|x a IH]; intros b k k' A B E; destruct b as [|y b]; cbn [app In] in *.
  - injection E as ->. auto.
  - injection E as <- _. tauto.
  - injection E as -> _. tauto.
  - injection E as -> E. destruct (IH b k k') as [-> ->]; auto.
Qed.
Example C87_ex_styles : styles_ok [ex_style x33; ex_style x36; ex_style x31].
Proof.
  intros f g F G. assert (X : exists c c', f = ex_style c /\ g = ex_style c').
  { destruct F as [<-|[<-|[<-|[]]]]; destruct G as [<-|[<-|[<-|[]]]]; eauto. }
  destruct X as (c & c' & -> & ->). split; [intros a; unfold ex_style; cbn [app]; eauto|].
  intros a b k k' A B E. unfold ex_style in E. cbn [app] in E. injection E as E1 E. rewrite <- !app_assoc in E. cbn [app] in E.
  destruct (esc_span _ _ _ _ A B E) as [-> X]. injection X as ->. auto.
Qed.
(** two answers of the kind, printed *)
Definition ex_cols : list ctype := [CStr; CList CUInt; CF64; CBin].
Definition ex_rows1 : response := RsRows [[VStr (bstr "a"", ""b"%string); VList [VUInt 1; VUInt 2]; VF64 1; VNull]; [VNull; VList []; VF64 2; VBin [x00; xff]]].
Definition ex_rows2 : response := RsRows [[VStr (bstr "a"", ""b"%string); VList [VUInt 12]; VF64 1; VNull]; [VNull; VList []; VF64 2; VBin [x00; xff]]].
Example C87_ex_answers : answer (fun v t => of_column ex_fok ex_fok (fun s => ~ In x5c s) t v) ex_cols ex_rows1 /\
  answer (fun v t => of_column ex_fok ex_fok (fun s => ~ In x5c s) t v) ex_cols ex_rows2 /\
  format_response ex_f ex_f (ex_style x33) (ex_style x36) (ex_style x31) false true ex_rows1 <>
  format_response ex_f ex_f (ex_style x33) (ex_style x36) (ex_style x31) false true ex_rows2.
Proof.
  assert (A : answer (fun v t => of_column ex_fok ex_fok (fun s => ~ In x5c s) t v) ex_cols ex_rows1).
  { constructor. constructor; [|constructor; [|constructor]]; repeat (apply Forall2_cons || apply Forall2_nil).
    all: try (left; reflexivity). all: right; constructor; auto; try (vm_compute; intuition discriminate; fail).
    all: try (left; reflexivity). all: try (right; reflexivity). repeat constructor. }
  assert (B : answer (fun v t => of_column ex_fok ex_fok (fun s => ~ In x5c s) t v) ex_cols ex_rows2).
  { constructor. constructor; [|constructor; [|constructor]]; repeat (apply Forall2_cons || apply Forall2_nil).
    all: try (left; reflexivity). all: right; constructor; auto; try (vm_compute; intuition discriminate; fail).
    all: try (left; reflexivity). all: try (right; reflexivity). repeat constructor. }
  split; [exact A|]. split; [exact B|]. intros E. apply (C87_told_apart_partial _ _ _ _ _ ex_fok ex_fok ex_cols) in E; auto using C87_ex_float, C87_ex_styles. discriminate E.
Qed.

(** C87 is false: a tab and the two characters [\t] *)
Theorem C87_refuted : exists tys r r', answer (fun v t => of_column ex_fok ex_fok (fun _ => True) t v) tys r /\
  answer (fun v t => of_column ex_fok ex_fok (fun _ => True) t v) tys r' /\ r <> r' /\
  format_response ex_f ex_f (ex_style x33) (ex_style x36) (ex_style x31) false true r = format_response ex_f ex_f (ex_style x33) (ex_style x36) (ex_style x31) false true r'.
Proof.
  exists [CStr], (RsRow [VStr [x09]]), (RsRow [VStr (bstr "\t"%string)]).
  split; [constructor; constructor; [right; constructor; exact I|constructor]|]. split; [constructor; constructor; [right; constructor; exact I|constructor]|].
  split; [discriminate|vm_compute; reflexivity].
Qed.
(** on the command line strings are printed bare *)
Theorem C87_command_line_refuted : exists tys r r', answer (fun v t => of_column ex_fok ex_fok (fun s => ~ In x5c s) t v) tys r /\
  answer (fun v t => of_column ex_fok ex_fok (fun s => ~ In x5c s) t v) tys r' /\ r <> r' /\
  format_response ex_f ex_f (ex_style x33) (ex_style x36) (ex_style x31) false false r = format_response ex_f ex_f (ex_style x33) (ex_style x36) (ex_style x31) false false r'.
Proof.
  exists [CStr; CStr], (RsRow [VStr (bstr "a, b"%string); VStr (bstr "c"%string)]), (RsRow [VStr (bstr "a"%string); VStr (bstr "b, c"%string)]).
  split; [constructor; repeat (apply Forall2_cons || apply Forall2_nil); right; constructor; vm_compute; intuition discriminate|].
  split; [constructor; repeat (apply Forall2_cons || apply Forall2_nil); right; constructor; vm_compute; intuition discriminate|].
  split; [discriminate|vm_compute; reflexivity].
Qed.

Print Assumptions C87_told_apart_partial.
Print Assumptions C87_backslash.
Print Assumptions C87_refuted.
Print Assumptions C87_command_line_refuted.
