(** What a vector is: a list. Beside the list, what was given out and what was destroyed. *)
From Coq Require Import List Arith Bool.
From Verif Require Import VecModel.
Import ListNotations.

Section Spec.
Variable T : Type.
Definition without (i : nat) (xs : list T) : list T := firstn i xs ++ skipn (S i) xs.
(** the list, the answer, the elements destroyed *)
Definition l_exec (xs : list T) (o : vop T) : list T * vout T * list T :=
  match o with
  | VPush _ x => (xs ++ [x], OUnit T, [])
  | VRemove _ i | VRemoveCompact _ i => match nth_error xs i with Some x => (without i xs, OElem T x, []) | None => (xs, OPanic T, []) end
  | VClear _ => ([], OUnit T, xs)
  | VOptimize _ => (xs, OUnit T, [])
  | VSlice _ => (xs, OSlice T xs, [])
  | VExtend _ ys => (xs ++ ys, OUnit T, [])
  end.
Fixpoint l_run (xs : list T) (os : list (vop T)) : list T * list (vout T) * list T :=
  match os with
  | [] => (xs, [], [])
  | o :: r => let '(x1, a, d) := l_exec xs o in let '(x2, b, e) := l_run x1 r in (x2, a :: b, d ++ e)
  end.
(** a list of bounded length *)
Definition u_list (N : nat) (xs : list T) (o : uop T) : list T * uout T * list T :=
  match o with
  | UPush _ x => if length xs <? N then (xs ++ [x], PUnit T, []) else (xs, PPanic T, [x])
  | URemove _ i => match nth_error xs i with Some x => (without i xs, PElem T x, []) | None => (xs, PPanic T, []) end
  | UPop _ => match rev xs with [] => (xs, PNone T, []) | x :: r => (rev r, PElem T x, []) end
  | UClear _ => ([], PUnit T, xs)
  | USlice _ => (xs, PSlice T xs, [])
  end.
Fixpoint u_lists (N : nat) (xs : list T) (os : list (uop T)) : list T * list (uout T) * list T :=
  match os with
  | [] => (xs, [], [])
  | o :: r => let '(x1, a, d) := u_list N xs o in let '(x2, b, e) := u_lists N x1 r in (x2, a :: b, d ++ e)
  end.
(** taking a list apart from both ends: what is left, what was given *)
Fixpoint take (xs : list T) (ds : list bool) : list T * list (option T) :=
  match ds with
  | [] => (xs, [])
  | true :: r => match xs with [] => let (l, g) := take [] r in (l, None :: g) | x :: xs' => let (l, g) := take xs' r in (l, Some x :: g) end
  | false :: r => match rev xs with [] => let (l, g) := take [] r in (l, None :: g) | x :: xs' => let (l, g) := take (rev xs') r in (l, Some x :: g) end
  end.
(** what was put in and what was given out, in a history and its answers *)
Definition put_in (o : vop T) : list T := match o with VPush _ x => [x] | VExtend _ xs => xs | _ => [] end.
Definition given (a : vout T) : list T := match a with OElem _ x => [x] | _ => [] end.
Definition u_put_in (o : uop T) : list T := match o with UPush _ x => [x] | _ => [] end.
Definition u_given (a : uout T) : list T := match a with PElem _ x => [x] | _ => [] end.
Definition somes (l : list (option T)) : list T := flat_map (fun o => match o with Some x => [x] | None => [] end) l.
(** memory: addresses beyond the last one are free *)
Definition fresh (w : world T) : Prop := forall a, next T w < a -> blocks T w a = None.
(** address 0 is never a block's *)
Definition sane (w : world T) : Prop := fresh w /\ blocks T w 0 = None.
End Spec.
