(** C116: what statements that run at the same time may answer. *)
From Coq Require Import List NArith Bool Arith Sorting.Sorted.
From Verif Require Import DataModel RowModel ConcModel.
Import ListNotations.
Local Open Scope nat_scope.

Section Spec.
Variables V F : Type.
Variable app : F -> V -> V * bool.
Notation cstmt := (cstmt V F).
Notation cans := (cans V).

(** a plain table, what a statement alone answers, and what it makes of the table *)
Definition tab : Type := pkey -> option V.
Definition answer (T : tab) (s : cstmt) : cans :=
  match s with
  | CIns k _ => match T k with None => CAok | Some _ => CAdup end
  | CUpd k f => match T k with None => CAnone | Some x => if snd (app f x) then CAok else CArefused end
  | CDel k => match T k with None => CAnone | Some _ => CAok end
  | CSel k => match T k with None => CAnone | Some x => CArow x end
  | CAll => CArows []
  end.
Definition after (T : tab) (s : cstmt) : tab :=
  match s with
  | CIns k x => match T k with None => kset T k (Some x) | Some _ => T end
  | CUpd k f => match T k with None => T | Some x => kset T k (Some (fst (app f x))) end
  | CDel k => kset T k None
  | CSel _ | CAll => T
  end.

(** a statement has taken effect: which, what it answers, the moment *)
Record eff := mk_eff { ef_id : nat; ef_st : cstmt; ef_ans : cans; ef_at : nat }.
Definition final (T : tab) (L : list eff) : tab := fold_left (fun T e => after T (ef_st e)) L T.
Fixpoint in_turn (T : tab) (L : list eff) : Prop :=
  match L with [] => True | e :: L' => ef_ans e = answer T (ef_st e) /\ in_turn (after T (ef_st e)) L' end.

(** the rows in memory, and what they were after [n] steps of a history *)
Definition mem (c : cst V F) : tab := fun k => match c_idx c k with Some o => option_map ob_val (nth_error (c_objs c) o) | None => None end.
Definition moment (ord : list nat -> list nat) (ls : list (clab V F)) (n : nat) (c : cst V F) : Prop := n <= length ls /\ crun app ord cst0 (firstn n ls) = Some c.

(** the order [L] explains the answers given so far: one after the other, starting with an empty table, the
    statements give just these answers; each has its effect at a moment between its beginning and its
    answer; none is missing; the memory is what the order leads to. SELECT ALL is not among them. *)
Definition explains (c : cst V F) (L : list eff) : Prop :=
  in_turn (fun _ => None) L /\ StronglySorted le (map ef_at L) /\ NoDup (map ef_id L) /\
  (forall e, In e L -> ef_st e <> CAll /\ exists t, nth_error (c_tasks c) (ef_id e) = Some t /\ ct_st t = ef_st e /\
     ct_inv t <= ef_at e < c_now c /\ forall a m, ct_pc t = PDone a m -> a = ef_ans e /\ ef_at e <= m) /\
  (forall i t a m, nth_error (c_tasks c) i = Some t -> ct_pc t = PDone a m -> ct_st t <> CAll -> In i (map ef_id L)) /\
  (forall k, final (fun _ => None) L k = mem c k).


(** a statement is under way; no DELETE is under way beside an INSERT or UPDATE of the same row *)
Definition busy (t : ctask V F) : Prop := ct_pc t <> PNew /\ forall a m, ct_pc t <> PDone a m.
Definition calm (c : cst V F) : Prop := forall i j t u k, nth_error (c_tasks c) i = Some t -> nth_error (c_tasks c) j = Some u ->
  ct_st t = CDel k -> (exists x, ct_st u = CIns k x) \/ (exists f, ct_st u = CUpd k f) -> busy t -> busy u -> False.
(** all statements are answered and all changes are in the file *)
Definition settled (c : cst V F) : Prop := (forall i t, nth_error (c_tasks c) i = Some t -> exists a m, ct_pc t = PDone a m) /\ c_queue c = [] /\ c_open c = [].
End Spec.
Arguments answer {V F}. Arguments after {V F}. Arguments mk_eff {V F}. Arguments ef_id {V F}. Arguments ef_st {V F}. Arguments ef_ans {V F}. Arguments ef_at {V F}.
Arguments final {V F}. Arguments in_turn {V F}. Arguments explains {V F}. Arguments mem {V F}. Arguments moment {V F}. Arguments busy {V F}. Arguments calm {V F}. Arguments settled {V F}.
