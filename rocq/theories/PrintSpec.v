(** Columns and answers, for C87. *)
From Coq Require Import Strings.String List NArith ZArith Bool.
From Verif Require Import Bytes NumModel NumProofs PrintModel.
Import ListNotations.
Local Open Scope N_scope.

(** the types of columns *)
Inductive ctype := CBool | CUInt | CSInt | CF32 | CF64 | CStr | CBin | CList (t : ctype).
(** a value of the type, within the ranges; [fok] are the floats, [sok] the strings that may occur *)
Inductive of_type (fok32 fok64 : N -> Prop) (sok : bytes -> Prop) : ctype -> value -> Prop :=
| OfBool b : of_type fok32 fok64 sok CBool (VBool b)
| OfUInt n : n < two64 -> of_type fok32 fok64 sok CUInt (VUInt n)
| OfSInt z : (-9223372036854775808 <= z < 9223372036854775808)%Z -> of_type fok32 fok64 sok CSInt (VSInt z)
| OfF32 w : fok32 w -> of_type fok32 fok64 sok CF32 (VF32 w)
| OfF64 w : fok64 w -> of_type fok32 fok64 sok CF64 (VF64 w)
| OfStr s : sok s -> of_type fok32 fok64 sok CStr (VStr s)
| OfBin b : of_type fok32 fok64 sok CBin (VBin b)
| OfList t l : Forall (of_type fok32 fok64 sok t) l -> of_type fok32 fok64 sok (CList t) (VList l).
(** a cell may also be null *)
Definition of_column (fok32 fok64 : N -> Prop) (sok : bytes -> Prop) (t : ctype) (v : value) : Prop := v = VNull \/ of_type fok32 fok64 sok t v.

(** printed floats: told apart among the floats in question, made of digits, signs, points and letters *)
Definition float_text (fok : N -> Prop) (f : N -> bytes) : Prop :=
  (forall a b, fok a -> fok b -> f a = f b -> a = b) /\
  (forall w, fok w -> f w <> [] /\ Forall (fun c => c = x2d \/ c = x2e \/ 48 <= b2n c <= 57 \/ 65 <= b2n c <= 90 \/ 97 <= b2n c <= 122) (f w)).
(** styled text starts with an escape character, and the style tells texts apart *)
Definition style_ok (sty : bytes -> bytes) : Prop :=
  (forall a, exists r, sty a = x1b :: r) /\ (forall a b k k', ~ In x1b a -> ~ In x1b b -> sty a ++ k = sty b ++ k' -> a = b /\ k = k').
(** also from style to style *)
Definition styles_ok (l : list (bytes -> bytes)) : Prop :=
  forall f g, In f l -> In g l ->
    (forall a, exists r, f a = x1b :: r) /\ (forall a b k k', ~ In x1b a -> ~ In x1b b -> f a ++ k = g b ++ k' -> a = b /\ k = k').

(** the answers to queries: nothing, an error, a row or rows *)
Inductive answer (P : value -> ctype -> Prop) (tys : list ctype) : response -> Prop :=
| AnEmpty : answer P tys RsEmpty
| AnError e : e < two64 -> answer P tys (RsError e)
| AnRow r : Forall2 P r tys -> answer P tys (RsRow r)
| AnRows rs : Forall (fun r => Forall2 P r tys) rs -> answer P tys (RsRows rs).
