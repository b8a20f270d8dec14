(** JSON texts (RFC 8259) as a grammar over bytes, and the value a text stands for. Strings are kept as
    written between the quotes (escapes are not decoded) and numbers as written. *)
From Coq Require Import Strings.String List NArith Bool.
From Verif Require Import Bytes.
Import ListNotations.
Local Open Scope N_scope.

Inductive jval :=
| JNull | JBool (b : bool) | JNum (t : bytes) | JStr (s : bytes)
| JArr (l : list jval) | JObj (l : list (bytes * jval)).

(** insignificant white space *)
Definition ws (w : bytes) : Prop := Forall (fun b => b = x20 \/ b = x09 \/ b = x0a \/ b = x0d) w.
Definition jdigit (b : byte) : Prop := 48 <= b2n b <= 57.
Definition jhex (b : byte) : Prop := jdigit b \/ 97 <= b2n b <= 102 \/ 65 <= b2n b <= 70.

(** what may stand between the quotes of a string *)
Inductive jchars : bytes -> Prop :=
| jc_end : jchars []
| jc_plain b r : 32 <= b2n b -> b <> x22 -> b <> x5c -> jchars r -> jchars (b :: r)
| jc_esc b r : In b [x22; x5c; x2f; x62; x66; x6e; x72; x74] -> jchars r -> jchars (x5c :: b :: r)
| jc_uni a b c d r : jhex a -> jhex b -> jhex c -> jhex d -> jchars r -> jchars (x5c :: x75 :: a :: b :: c :: d :: r).

Definition jdigits (l : bytes) : Prop := l <> [] /\ Forall jdigit l.
Inductive jint : bytes -> Prop :=
| ji_zero : jint [x30]
| ji_more b r : jdigit b -> b <> x30 -> Forall jdigit r -> jint (b :: r).
Inductive jfrac : bytes -> Prop := jf_none : jfrac [] | jf_some l : jdigits l -> jfrac (x2e :: l).
Inductive jexp : bytes -> Prop :=
| jx_none : jexp []
| jx_some e s l : e = x65 \/ e = x45 -> s = [] \/ s = [x2b] \/ s = [x2d] -> jdigits l -> jexp (e :: s ++ l).
Inductive jnum : bytes -> Prop :=
| jn s i f e : s = [] \/ s = [x2d] -> jint i -> jfrac f -> jexp e -> jnum (s ++ i ++ f ++ e).

Definition quoted (s : bytes) : bytes := x22 :: s ++ [x22].
Inductive jtext : jval -> bytes -> Prop :=
| jt_null : jtext JNull (bstr "null"%string)
| jt_true : jtext (JBool true) (bstr "true"%string)
| jt_false : jtext (JBool false) (bstr "false"%string)
| jt_num t : jnum t -> jtext (JNum t) t
| jt_str s : jchars s -> jtext (JStr s) (quoted s)
| jt_arr0 w : ws w -> jtext (JArr []) (x5b :: w ++ [x5d])
| jt_arr l t : jelems l t -> jtext (JArr l) (x5b :: t ++ [x5d])
| jt_obj0 w : ws w -> jtext (JObj []) (x7b :: w ++ [x7d])
| jt_obj l t : jmembers l t -> jtext (JObj l) (x7b :: t ++ [x7d])
with jelems : list jval -> bytes -> Prop :=
| je_one v t w1 w2 : jtext v t -> ws w1 -> ws w2 -> jelems [v] (w1 ++ t ++ w2)
| je_more v t w1 w2 l u : jtext v t -> ws w1 -> ws w2 -> jelems l u -> jelems (v :: l) (w1 ++ t ++ w2 ++ x2c :: u)
with jmembers : list (bytes * jval) -> bytes -> Prop :=
| jm_one k v t w1 w2 w3 w4 : jchars k -> jtext v t -> ws w1 -> ws w2 -> ws w3 -> ws w4 ->
    jmembers [(k, v)] (w1 ++ quoted k ++ w2 ++ x3a :: w3 ++ t ++ w4)
| jm_more k v t w1 w2 w3 w4 l u : jchars k -> jtext v t -> ws w1 -> ws w2 -> ws w3 -> ws w4 -> jmembers l u ->
    jmembers ((k, v) :: l) (w1 ++ quoted k ++ w2 ++ x3a :: w3 ++ t ++ w4 ++ x2c :: u).

(** a JSON document with value [v] *)
Definition json (v : jval) (t : bytes) : Prop := exists w1 u w2, ws w1 /\ jtext v u /\ ws w2 /\ t = w1 ++ u ++ w2.
