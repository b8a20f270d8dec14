(** What is wanted of the low-priority executor, in terms of what can be seen from outside: when the models were written, which directories were asked
    to be deleted, which exist. *)
From Coq Require Import List NArith Bool.
From Verif Require Import TimerModel.
Import ListNotations.
Local Open Scope N_scope.

(** the end of the last write, [t0] if there was none; the last write comes first *)
Definition last_end (t0 : N) (w : list (N * N)) : N := match w with [] => t0 | (_, e) :: _ => e end.
(** every write begins one window after the end of the one before *)
Fixpoint spaced (dur t0 : N) (w : list (N * N)) : Prop :=
  match w with [] => True | (a, e) :: r => a = last_end t0 r + dur /\ a <= e /\ spaced dur t0 r end.

(** a directory lies in another: it is the same, or a model's in that of its space *)
Inductive within : dir -> dir -> Prop :=
| w_same d : within d d
| w_model s m : within (DModel s m) (DSpace s).

Definition asks (ls : list lab) : list dir := flat_map (fun l => match l with LAsk x => [x] | _ => [] end) ls.
Definition makes (ls : list lab) : list dir := flat_map (fun l => match l with LMake x => [x] | _ => [] end) ls.
Definition failures (ls : list lab) : nat := length (filter (fun l => match l with LTask false _ => true | _ => false end) ls).
Definition stops (ls : list lab) : bool := existsb (fun l => match l with LStop _ => true | _ => false end) ls.

(** the times at which something the executor did was finished *)
Fixpoint ends (dur : N) (s : lp) (ls : list lab) : list N :=
  match ls with
  | [] => []
  | l :: r => match step dur s l with
              | Some s' => match l with LTask _ _ | LTimer _ => now s' :: ends dur s' r | _ => ends dur s' r end
              | None => []
              end
  end.
(** a directory asked for that nobody made (again) afterwards, nor anything in it *)
Fixpoint dropped (x : dir) (ls : list lab) : Prop :=
  match ls with
  | [] => False
  | l :: r => dropped x r \/ (l = LAsk x /\ forall y, In y (makes r) -> ~ within y x)
  end.
