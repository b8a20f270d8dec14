(** What is said about a benchmark, in terms of the queries that were answered alone (sky-bench/src/). *)
From Coq Require Import List Arith NArith Bool.
From Verif Require Import BenchModel.
Import ListNotations.
Open Scope N_scope.

(** the queries of a phase *)
Definition of_ph (k : nat) (lg : list entry) : list entry := filter (fun e => Nat.eqb (e_ph e) k) lg.
(** those of one worker in a phase *)
Definition by_worker (k i : nat) (lg : list entry) : list entry := filter (fun e => Nat.eqb (e_w e) i) (of_ph k lg).

(** every key from 1 to [c] was used exactly once, by a query answered well *)
Definition each_once (k : nat) (c : N) (lg : list entry) : Prop :=
  NoDup (map e_pos (of_ph k lg)) /\ (forall x, In x (map e_pos (of_ph k lg)) <-> 1 <= x <= c) /\
  (forall e, In e (of_ph k lg) -> e_ok e = true).

(** time of a query *)
Definition took (e : entry) : N := e_t1 e - e_t0 e.
(** a number is the smallest, the largest of those of the queries *)
Definition smallest (f : entry -> N) (l : list entry) (x : N) : Prop := (exists e, In e l /\ f e = x) /\ forall e, In e l -> x <= f e.
Definition largest (f : entry -> N) (l : list entry) (x : N) : Prop := (exists e, In e l /\ f e = x) /\ forall e, In e l -> f e <= x.

(** time of several queries *)
Definition together (l : list entry) : N := fold_right (fun e a => took e + a) 0 l.
(** no worker pauses between its queries: all of them are over when it was at work for the sum of their times *)
Definition no_pause (k n : nat) (lg : list entry) : Prop :=
  forall i lo, (i < n)%nat -> smallest e_t0 (by_worker k i lg) lo -> forall e, In e (by_worker k i lg) -> e_t1 e <= lo + together (by_worker k i lg).

(** the server answers everything well *)
Definition answers (l : lab) : Prop := match l with WS _ g => g = true | _ => True end.
(** something other than time passing *)
Definition is_move (l : lab) : bool := match l with Tick _ => false | _ => true end.
Definition stuck (rookie : bool) (n : nat) (s : sys) : Prop :=
  forall l, answers l -> is_move l = true -> step rookie n s l = None.
(** steps of a benchmark with [n] workers and these numbers of queries, at most *)
Definition at_most (n : nat) (cs : list N) : N :=
  1 + fold_right (fun c a => c * (N.of_nat n + 6) + 10 * N.of_nat n + 1 + a) 0 cs.
