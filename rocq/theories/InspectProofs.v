(** INSPECT: JSON texts are balanced; the pieces of the answers. *)
From Coq Require Import Strings.String List NArith ZArith Bool Arith Lia.
From Verif Require Import Bytes DataModel CodecModel AMap NumModel NumProofs GnsModel LexModel LexSpec ParseModel DdlModel
  InspectModel JsonSpec.
Import ListNotations.

(** ** Brackets outside strings are balanced *)

(** [m]: 0 outside strings, 1 inside, 2 after a backslash *)
Fixpoint bal (m : nat) (d : Z) (l : bytes) : nat * Z :=
  match l with
  | [] => (m, d)
  | b :: l' =>
      match m with
      | O => if beq b x22 then bal 1 d l'
             else if beq b x5b || beq b x7b then bal 0 (d + 1)%Z l'
             else if beq b x5d || beq b x7d then bal 0 (d - 1)%Z l'
             else bal 0 d l'
      | S O => if beq b x22 then bal 0 d l' else if beq b x5c then bal 2 d l' else bal 1 d l'
      | _ => bal 1 d l'
      end
  end.
Lemma bal_app a : forall m d b, bal m d (a ++ b) = let '(m', d') := bal m d a in bal m' d' b.
Proof.
  induction a as [|x a IH]; intros m d b; [reflexivity|]. cbn [app bal].
  destruct m as [|[|m]]; [destruct (beq x x22); [|destruct (beq x x5b || beq x x7b); [|destruct (beq x x5d || beq x x7d)]]|
    destruct (beq x x22); [|destruct (beq x x5c)]|]; apply IH.
Qed.
Definition neutral (t : bytes) : Prop := forall d, bal 0 d t = (O, d).
Lemma neutral_nil : neutral []. Proof. intros d. reflexivity. Qed.
Lemma neutral_app a b : neutral a -> neutral b -> neutral (a ++ b).
Proof. intros A B d. rewrite bal_app, A. apply B. Qed.

Definition soft (b : byte) : bool := negb (beq b x22 || beq b x5b || beq b x7b || beq b x5d || beq b x7d).
Lemma soft_cons b l d : soft b = true -> bal 0 d (b :: l) = bal 0 d l.
Proof.
  unfold soft. intros S. cbn [bal]. destruct (beq b x22), (beq b x5b), (beq b x7b), (beq b x5d), (beq b x7d); try discriminate S; reflexivity.
Qed.
Lemma neutral_soft l : forallb soft l = true -> neutral l.
Proof.
  induction l as [|b l IH]; [intros _; apply neutral_nil|]. cbn [forallb]. intros H. apply andb_prop in H. destruct H as [S H].
  intros d. rewrite soft_cons by exact S. apply IH. exact H.
Qed.
Lemma digit_soft b : jdigit b -> soft b = true.
Proof. unfold jdigit. destruct b; cbn; intros [A B]; try reflexivity; exfalso; lia. Qed.
Lemma digits_soft l : Forall jdigit l -> forallb soft l = true.
Proof. induction 1 as [|b l D _ IH]; [reflexivity|]. cbn. rewrite (digit_soft b D), IH. reflexivity. Qed.
Lemma ws_neutral w : ws w -> neutral w.
Proof.
  intros W. apply neutral_soft. induction W as [|b w H _ IH]; [reflexivity|]. cbn [forallb]. rewrite IH, andb_true_r.
  destruct H as [-> |[-> |[-> | ->]]]; reflexivity.
Qed.
Lemma num_neutral t : jnum t -> neutral t.
Proof.
  intros [s i f e S I F E]. repeat apply neutral_app.
  - destruct S as [-> | ->]; apply neutral_soft; reflexivity.
  - apply neutral_soft. destruct I as [|b r D _ R]; [reflexivity|]. cbn. rewrite (digit_soft b D), (digits_soft r R). reflexivity.
  - apply neutral_soft. destruct F as [|l [_ D]]; [reflexivity|]. cbn. apply digits_soft. exact D.
  - apply neutral_soft. destruct E as [|e s' l E S' [_ D]]; [reflexivity|]. cbn [forallb]. rewrite forallb_app, (digits_soft l D).
    destruct E as [-> | ->]; destruct S' as [-> |[-> | ->]]; reflexivity.
Qed.

Lemma beq_neq a b : a <> b -> beq a b = false.
Proof. unfold beq. intros N. destruct (Byte.eqb a b) eqn:E; [|reflexivity]. apply Byte.byte_dec_bl in E. contradiction. Qed.
Lemma bal_in_plain b r d : beq b x22 = false -> beq b x5c = false -> bal 1 d (b :: r) = bal 1 d r.
Proof. intros A B. cbn [bal]. rewrite A, B. reflexivity. Qed.
Lemma hex_plain b : jhex b -> beq b x22 = false /\ beq b x5c = false.
Proof. unfold jhex, jdigit. destruct b; cbn; intros H; try (split; reflexivity); exfalso; lia. Qed.
Lemma chars_bal s : jchars s -> forall d r, bal 1 d (s ++ r) = bal 1 d r.
Proof.
  induction 1 as [|b s L Q B J IH|b s E J IH|a b c e s A B C D J IH]; intros d r; [reflexivity|..]; cbn [app].
  - rewrite bal_in_plain by (apply beq_neq; assumption). apply IH.
  - cbn [bal]. change (beq x5c x22) with false. change (beq x5c x5c) with true. cbn iota. apply IH.
  - cbn [bal]. change (beq x5c x22) with false. change (beq x5c x5c) with true. cbn iota.
    destruct (hex_plain a A) as [A1 A2], (hex_plain b B) as [B1 B2], (hex_plain c C) as [C1 C2], (hex_plain e D) as [D1 D2].
    rewrite A1, A2, B1, B2, C1, C2, D1, D2. apply IH.
Qed.
Lemma quoted_neutral s : jchars s -> neutral (quoted s).
Proof. intros J d. unfold quoted. cbn [bal]. change (beq x22 x22) with true. cbn iota. rewrite (chars_bal s J). reflexivity. Qed.
Lemma arr_neutral t : neutral t -> neutral (x5b :: t ++ [x5d]).
Proof.
  intros N d. cbn [bal]. change (beq x5b x22) with false. change (beq x5b x5b || beq x5b x7b) with true. cbn iota. rewrite bal_app, N.
  cbn. f_equal. lia.
Qed.
Lemma obj_neutral t : neutral t -> neutral (x7b :: t ++ [x7d]).
Proof.
  intros N d. cbn [bal]. change (beq x7b x22) with false. change (beq x7b x5b || beq x7b x7b) with true. cbn iota. rewrite bal_app, N.
  cbn. f_equal. lia.
Qed.

Scheme jtext_mut := Minimality for jtext Sort Prop
  with jelems_mut := Minimality for jelems Sort Prop
  with jmembers_mut := Minimality for jmembers Sort Prop.
Combined Scheme json_mut from jtext_mut, jelems_mut, jmembers_mut.
Lemma soft_then b l : soft b = true -> neutral l -> neutral (b :: l).
Proof. intros S N d. rewrite soft_cons by exact S. apply N. Qed.
Lemma jtext_neutral : (forall v t, jtext v t -> neutral t) /\ (forall l t, jelems l t -> neutral t) /\ (forall l t, jmembers l t -> neutral t).
Proof.
  apply json_mut; intros.
  1-3: apply neutral_soft; reflexivity.
  - apply num_neutral. assumption.
  - apply quoted_neutral. assumption.
  - apply arr_neutral, ws_neutral. assumption.
  - apply arr_neutral. assumption.
  - apply obj_neutral, ws_neutral. assumption.
  - apply obj_neutral. assumption.
  - repeat apply neutral_app; auto using ws_neutral.
  - repeat apply neutral_app; auto using ws_neutral.
  - repeat apply neutral_app; auto using ws_neutral, quoted_neutral.
  - repeat apply neutral_app; auto using ws_neutral, quoted_neutral.
Qed.
Lemma json_neutral v t : json v t -> neutral t.
Proof. intros (a & u & b & A & J & B & ->). repeat apply neutral_app; auto using ws_neutral. eapply (proj1 jtext_neutral). eassumption. Qed.

(** ** Words *)
Lemma wbyte_plain b : wbyte b -> (32 <= b2n b)%N /\ b <> x22 /\ b <> x5c.
Proof. unfold wbyte, letter. destruct b; cbn; intros H; (split; [lia|split; discriminate]) || (exfalso; destruct H as [H|[H|H]]; [lia|lia|discriminate H]). Qed.
Lemma word_wbytes w : is_word w -> Forall wbyte w.
Proof. destruct w as [|b r]; [contradiction|]. intros [[A|A] R]; constructor; auto; [left|right; right]; assumption. Qed.
Lemma wbytes_chars w : Forall wbyte w -> forall r, jchars r -> jchars (w ++ r).
Proof.
  induction 1 as [|b w B _ IH]; intros r R; [exact R|]. cbn [app]. destruct (wbyte_plain b B) as (A & Q & S). apply jc_plain; auto.
Qed.
Lemma word_chars w : is_word w -> jchars w.
Proof. intros W. rewrite <- (app_nil_r w). apply wbytes_chars; [apply word_wbytes; exact W | constructor]. Qed.

(** plain characters *)
Definition plain (b : byte) : bool := N.leb 32 (b2n b) && negb (beq b x22) && negb (beq b x5c).
Lemma plain_chars t r : forallb plain t = true -> jchars r -> jchars (t ++ r).
Proof.
  induction t as [|b t IH]; intros P R; [exact R|]. cbn [forallb] in P. apply andb_prop in P. destruct P as [B P].
  apply andb_prop in B. destruct B as [B C]. apply andb_prop in B. destruct B as [A B]. cbn [app]. apply jc_plain; auto.
  - apply N.leb_le. exact A.
  - intros ->. discriminate B.
  - intros ->. discriminate C.
Qed.

(** ** The pieces of the answers *)
Lemma ws_nil : ws []. Proof. constructor. Qed.
Lemma elems_one v t : jtext v t -> jelems [v] t.
Proof. intros J. pose proof (je_one v t [] [] J ws_nil ws_nil) as H. rewrite app_nil_r in H. exact H. Qed.
Lemma elems_more v t l u : jtext v t -> jelems l u -> jelems (v :: l) (t ++ x2c :: u).
Proof. intros J L. apply (je_more v t [] [] l u J ws_nil ws_nil L). Qed.
Lemma members_one k v t : jchars k -> jtext v t -> jmembers [(k, v)] (quoted k ++ x3a :: t).
Proof.
  intros K J. pose proof (jm_one k v t [] [] [] [] K J ws_nil ws_nil ws_nil ws_nil) as H. cbn [app] in H. rewrite app_nil_r in H. exact H.
Qed.
Lemma members_more k v t l u : jchars k -> jtext v t -> jmembers l u -> jmembers ((k, v) :: l) (quoted k ++ x3a :: t ++ x2c :: u).
Proof. intros K J L. apply (jm_more k v t [] [] [] [] l u K J ws_nil ws_nil ws_nil ws_nil L). Qed.
Lemma json_of v t : jtext v t -> json v t.
Proof. intros J. exists [], t, []. rewrite app_nil_r. repeat split; auto using ws_nil. Qed.

Lemma names_elems l : l <> [] -> Forall is_word l -> jelems (map JStr l) (names_text l).
Proof.
  induction l as [|x l IH]; [contradiction|]. intros _ W. inversion W as [|x0 l0 WX WL]; subst. cbn [names_text map].
  assert (J : jtext (JStr x) (quoted x)) by (constructor; apply word_chars; exact WX).
  destruct l as [|y l].
  - cbn [names_text app]. rewrite app_nil_r || idtac. apply (elems_one _ _ J).
  - replace (DQ :: x ++ DQ :: [COMMA] ++ names_text (y :: l)) with (quoted x ++ x2c :: names_text (y :: l))
      by (unfold quoted, DQ, COMMA; cbn [app]; rewrite <- app_assoc; reflexivity).
    apply elems_more; [exact J|]. apply IH; [discriminate | exact WL].
Qed.
Lemma names_array l : Forall is_word l -> jtext (JArr (map JStr l)) (x5b :: names_text l ++ [x5d]).
Proof.
  destruct l as [|x l]; intros W.
  - apply (jt_arr0 [] ws_nil).
  - apply jt_arr. apply names_elems; [discriminate | exact W].
Qed.
Lemma dec_num n s : dec_text n s -> jnum s.
Proof.
  intros (NE & D & _ & Z). destruct s as [|b r]; [contradiction|].
  assert (E : b :: r = [] ++ (b :: r) ++ [] ++ []) by (rewrite !app_nil_r; reflexivity). rewrite E. constructor; auto; [|constructor|constructor].
  assert (D' : Forall jdigit (b :: r)) by exact D.
  inversion D' as [|b0 r0 B R]; subst. destruct (Byte.byte_eq_dec b x30) as [-> |N].
  - rewrite (Z eq_refl). constructor.
  - constructor; auto.
Qed.
