(** Rust's [str::from_utf8] (core::str::validations, not part of /repo): the byte sequences that are
    UTF-8. Everywhere else the check is a parameter; this is the function to instantiate it with. *)
From Coq Require Import List NArith Bool Lia.
From Verif Require Import Bytes.
Import ListNotations.
Local Open Scope N_scope.

(** is the byte within the bounds? *)
Definition byte_in (lo hi : N) (b : byte) : bool := (lo <=? b2n b) && (b2n b <=? hi).
(** continuation byte *)
Definition cont (b : byte) : bool := byte_in 128 191 b.

(** Unicode 15, table 3-7 (well-formed UTF-8 byte sequences) *)
Fixpoint utf8_ok (l : bytes) : bool :=
  match l with
  | [] => true
  | a :: l1 =>
      if b2n a <? 128 then utf8_ok l1 else
      if byte_in 194 223 a then match l1 with b :: l2 => cont b && utf8_ok l2 | _ => false end else
      if byte_in 224 239 a then
        match l1 with
        | b :: c :: l3 =>
            (if b2n a =? 224 then byte_in 160 191 b else if b2n a =? 237 then byte_in 128 159 b else cont b)
            && cont c && utf8_ok l3
        | _ => false
        end else
      if byte_in 240 244 a then
        match l1 with
        | b :: c :: d :: l4 =>
            (if b2n a =? 240 then byte_in 144 191 b else if b2n a =? 244 then byte_in 128 143 b else cont b)
            && cont c && cont d && utf8_ok l4
        | _ => false
        end
      else false
  end.

Lemma utf8_app_len n : forall a b, (length a <= n)%nat -> utf8_ok a = true -> utf8_ok (a ++ b) = utf8_ok b.
Proof.
  induction n as [|n IH]; intros a b L H; destruct a as [|x a]; try (cbn in L; lia); auto.
  cbn [utf8_ok app length] in *. destruct (b2n x <? 128); [apply IH; auto; lia|].
  destruct (byte_in 194 223 x).
  { destruct a as [|y a]; [discriminate|]. cbn [app length] in *. apply andb_true_iff in H as [H1 H2]. rewrite H1.
    cbn [andb]. apply IH; auto; lia. }
  destruct (byte_in 224 239 x).
  { destruct a as [|y [|z a]]; try discriminate. cbn [app length] in *. apply andb_true_iff in H as [H1 H2]. rewrite H1.
    cbn [andb]. apply IH; auto; lia. }
  destruct (byte_in 240 244 x); [|discriminate].
  destruct a as [|y [|z [|w a]]]; try discriminate. cbn [app length] in *. apply andb_true_iff in H as [H1 H2]. rewrite H1.
  cbn [andb]. apply IH; auto; lia.
Qed.
(** strings put together are strings *)
Lemma utf8_ok_app a b : utf8_ok a = true -> utf8_ok b = true -> utf8_ok (a ++ b) = true.
Proof. intros A B. rewrite (utf8_app_len (length a)) by auto. exact B. Qed.

Example utf8_ok_example : utf8_ok [x61; xc3; xa9; xe2; x82; xac; xf0; x9f; x98; x80] = true /\
  utf8_ok [xff] = false /\ utf8_ok [xc0; x80] = false /\ utf8_ok [xed; xa0; x80] = false /\ utf8_ok [xe2; x82] = false /\
  utf8_ok [xf4; x90; x80; x80] = false.
Proof. repeat split; vm_compute; reflexivity. Qed.
