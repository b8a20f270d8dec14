(** What the row index is: a finite map, written as a list of pairs with distinct keys in no particular order. *)
From Coq Require Import List Arith NArith Bool.
From Verif Require Import MtModel.
Import ListNotations.

Section Spec.
Variables K V : Type.
Variable keq : K -> K -> bool.
Notation table := (list (K * V)).
Definition sfind (k : K) (l : table) : option (K * V) := find (fun e => keq k (fst e)) l.
Definition sdel (k : K) (l : table) : table := filter (fun e => negb (keq k (fst e))) l.
Definition sput (e : K * V) (l : table) : table := e :: sdel (fst e) l.

Definition sstep (l : table) (o : op K V) : table * res K V :=
  match o with
  | OInsert _ _ e => match sfind (fst e) l with Some _ => (l, RBool _ _ false) | None => (sput e l, RBool _ _ true) end
  | OUpsert _ _ e => (sput e l, RUnit _ _)
  | OUpdate _ _ e => match sfind (fst e) l with Some _ => (sput e l, RBool _ _ true) | None => (l, RBool _ _ false) end
  | OUpdateRet _ _ e => match sfind (fst e) l with Some o => (sput e l, RVal _ _ (Some (snd o))) | None => (l, RVal _ _ None) end
  | OContains _ _ k => (l, RBool _ _ (match sfind k l with Some _ => true | None => false end))
  | OGet _ _ k => (l, RVal _ _ (option_map snd (sfind k l)))
  | OGetElem _ _ k => (l, RElem _ _ (sfind k l))
  | ODelete _ _ k => (sdel k l, RBool _ _ (match sfind k l with Some _ => true | None => false end))
  | ODeleteRet _ _ k => (sdel k l, RVal _ _ (option_map snd (sfind k l)))
  | ODeleteEntry _ _ k => (sdel k l, RElem _ _ (sfind k l))
  | OLen _ _ => (l, RLen _ _ (N.of_nat (length l) mod 2 ^ 64)%N)
  end.
Fixpoint srun (l : table) (os : list (op K V)) : table * list (res K V) :=
  match os with
  | [] => (l, [])
  | o :: r => let (l', x) := sstep l o in let (l'', xs) := srun l' r in (l'', x :: xs)
  end.
End Spec.
