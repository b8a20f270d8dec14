(** What an insertion-ordered map is: a list of pairs, the one written last at the end. *)
From Coq Require Import List Arith Bool.
From Verif Require Import StordModel.
Import ListNotations.

Section Spec.
Variables K V : Type.
Variable keq : K -> K -> bool.

Definition sget (k : K) (l : list (K * V)) : option V :=
  match find (fun x => keq (fst x) k) l with Some (_, v) => Some v | None => None end.
Definition sdel (k : K) (l : list (K * V)) : list (K * V) := filter (fun x => negb (keq (fst x) k)) l.
Definition sput (k : K) (v : V) (l : list (K * V)) : list (K * V) := map (fun x => if keq (fst x) k then (fst x, v) else x) l.

(** items taken from both ends, with the number left *)
Fixpoint sfront (l : list (K * V)) (ds : list bool) : list (option (K * V) * nat) :=
  match ds with
  | [] => []
  | true :: r => match l with [] => (None, 0) :: sfront [] r | x :: l' => (Some x, length l') :: sfront l' r end
  | false :: r =>
      match rev l with [] => (None, 0) :: sfront [] r | x :: l' => (Some x, length l') :: sfront (rev l') r end
  end.

Definition sstep (l : list (K * V)) (o : op K V) : list (K * V) * out K V :=
  match o with
  | OInsert _ _ k v => match sget k l with Some _ => (l, RBool _ _ false) | None => (l ++ [(k, v)], RBool _ _ true) end
  | OPut _ _ k v => match sget k l with Some _ => (sput k v l, RBool _ _ true) | None => (l, RBool _ _ false) end
  | OUpdate _ _ k v => match sget k l with Some old => (sdel k l ++ [(k, v)], RVal _ _ (Some old)) | None => (l, RVal _ _ None) end
  | OUpsert _ _ k v => (sdel k l ++ [(k, v)], RVal _ _ (sget k l))
  | ORemove _ _ k => (sdel k l, RVal _ _ (sget k l))
  | OClear _ _ => ([], RUnit _ _)
  | OCompact _ _ => (l, RUnit _ _)
  | OGet _ _ k => (l, RVal _ _ (sget k l))
  | OLen _ _ => (l, RNum _ _ (length l))
  | OIter _ _ ds => (l, RIter _ _ (sfront l ds))
  end.
Fixpoint srun (l : list (K * V)) (os : list (op K V)) : list (K * V) * list (out K V) :=
  match os with
  | [] => (l, [])
  | o :: r => let x := sstep l o in let y := srun (fst x) r in (fst y, snd x :: snd y)
  end.
End Spec.
