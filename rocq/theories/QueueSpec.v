(** What a queue shared by threads is: every operation takes effect at once, at some moment between its call
    and its return. *)
From Coq Require Import List Arith.
From Verif Require Import QueueModel.
Import ListNotations.

Section Spec.
Variable A : Type.
Inductive athread : Type := AIdle | APending (o : op A) | AReady (r : res A).
Record ast : Type := MkA { aq : list A; ath : nat -> athread }.
Definition ainit : ast := MkA [] (fun _ => AIdle).

(** effects on the queue, in their order *)
Inductive effect : Type := FEnq (v : A) | FDeq (v : A) | FEmpty.

Inductive astep : ast -> list (event A) -> list effect -> ast -> Prop :=
| a_call q th t o : th t = AIdle -> astep (MkA q th) [EInv A t o] [] (MkA q (fup th t (APending o)))
| a_enq q th t v : th t = APending (OEnq A v) -> astep (MkA q th) [] [FEnq v] (MkA (q ++ [v]) (fup th t (AReady (RDone A))))
| a_deq q th t v : th t = APending (ODeq A) -> astep (MkA (v :: q) th) [] [FDeq v] (MkA q (fup th t (AReady (RItem A (Some v)))))
| a_empty th t : th t = APending (ODeq A) -> astep (MkA [] th) [] [FEmpty] (MkA [] (fup th t (AReady (RItem A None))))
| a_ret q th t r : th t = AReady r -> astep (MkA q th) [ERet A t r] [] (MkA q (fup th t AIdle)).

Inductive asteps : ast -> list (event A) -> list effect -> ast -> Prop :=
| as_refl s : asteps s [] [] s
| as_step s e f s' e' f' s'' : astep s e f s' -> asteps s' e' f' s'' -> asteps s (e ++ e') (f ++ f') s''.

Fixpoint enqs (f : list effect) : list A := match f with [] => [] | FEnq v :: r => v :: enqs r | _ :: r => enqs r end.
Fixpoint deqs (f : list effect) : list A := match f with [] => [] | FDeq v :: r => v :: deqs r | _ :: r => deqs r end.
End Spec.
