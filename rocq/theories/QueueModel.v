(** The change queue (a Michael–Scott queue) under every schedule. All lines are those of
    /repo/server/src/engine/sync/queue.rs. *)
From Coq Require Import List Arith Bool.
Import ListNotations.

Section Queue.
Variable A : Type.

(** 72-159: the two operations, and what they answer *)
Inductive op : Type := OEnq (v : A) | ODeq.
(** what the operations answer, 72-159 *)
Inductive res : Type := RDone | RItem (v : option A).

(** where a thread is: the point before its next access to shared memory, with its local variables *)
Inductive pc : Type :=
| PIdle
| PAlloc (v : A) (* 73: allocate the node *)
| PTail (n : nat) (* 76: load the tail *)
| PNext (n t : nat) (* 77-78: load the next pointer of the tail *)
| PLink (n t : nat) (* 79-91: link the node *)
| PHelp (n t x : nat) (* 104-112: the tail lags behind *)
| PSwing (n t : nat) (* 95-102: move the tail to the node *)
| DHead (* 119: load the head *)
| DNext (h : nat) (* 120-121: load its next pointer *)
| DSwing (h x : nat) (* 128-136: move the head *)
| DTail (h x : nat) (* 140: load the tail *)
| DFix (h x : nat) (* 143-151: move the tail *)
| DRetire (h x : nat) (* 154: hand the old sentinel to the collector *)
| DRead (x : nat) (* 156: take the item out *)
| PRet (r : res).

(** Memory: blocks in use, their next pointers (0 is null) and items ([None]: no item, or taken out);
    head and tail (54-58); the threads inside a guard; the blocks handed to the collector, each with the
    threads that were inside a guard then and have not left it since; where each thread is. *)
Record st : Type := MkSt {
  live : list nat;
  nxt : nat -> nat;
  dat : nat -> option A;
  head : nat;
  tail : nat;
  pinned : list nat;
  retired : list (nat * list nat);
  pcs : nat -> pc
}.

(** helper of the model, without a counterpart in the code: functions on addresses, membership *)
Definition fup {B} (f : nat -> B) (a : nat) (x : B) : nat -> B := fun b => if b =? a then x else f b.
(** helper of the model, without a counterpart in the code: functions on addresses, membership *)
Definition mem (a : nat) (l : list nat) : bool := existsb (Nat.eqb a) l.

(** 61-71: a queue with only the sentinel (at address 1) *)
Definition init : st := MkSt [1] (fun _ => 0) (fun _ => None) 1 1 [] [] (fun _ => PIdle).

(** What the scheduler can choose: a thread enters or leaves a guard (crossbeam_epoch::pin), calls an
    operation, gets a block from the allocator, takes its next step; or the collector frees a block that
    every thread which was inside a guard has left (the contract of [defer_destroy]). *)
Inductive act : Type := APin | AUnpin | ACall (o : op) | AAlloc (a : nat) | ARun | AFree (a : nat).
(** calls and returns, for the statement of linearizability *)
Inductive event : Type := EInv (t : nat) (o : op) | ERet (t : nat) (r : res).
(** [Dis]: not a possible choice; [UB]: undefined behaviour *)
Inductive outcome : Type := Dis | UB | Next (s : st) (e : list event).

(** helper of the model, without a counterpart in the code: one field replaced *)
Definition set_pc (s : st) (t : nat) (p : pc) : st :=
  MkSt (live s) (nxt s) (dat s) (head s) (tail s) (pinned s) (retired s) (fup (pcs s) t p).
(** helper of the model, without a counterpart in the code: one field replaced *)
Definition set_tail (s : st) (x : nat) : st :=
  MkSt (live s) (nxt s) (dat s) (head s) x (pinned s) (retired s) (pcs s).
(** helper of the model, without a counterpart in the code: one field replaced *)
Definition set_head (s : st) (x : nat) : st :=
  MkSt (live s) (nxt s) (dat s) x (tail s) (pinned s) (retired s) (pcs s).
(** helper of the model, without a counterpart in the code: one field replaced *)
Definition set_nxt (s : st) (a x : nat) : st :=
  MkSt (live s) (fup (nxt s) a x) (dat s) (head s) (tail s) (pinned s) (retired s) (pcs s).
(** compare_exchange on the tail, result ignored *)
Definition cas_tail (s : st) (old new : nat) : st := if tail s =? old then set_tail s new else s.

(** 72-159: one step of a thread. Simplified: memory is sequentially consistent (the code asks for acquire and
    release only); every load or exchange is one step. *)
Definition run1 (s : st) (t : nat) : outcome :=
  match pcs s t with
  | PIdle | PAlloc _ => Dis
  | PTail n => Next (set_pc s t (PNext n (tail s))) []
  | PNext n a =>
      if mem a (live s) then Next (set_pc s t (if nxt s a =? 0 then PLink n a else PHelp n a (nxt s a))) [] else UB
  | PLink n a =>
      if mem a (live s)
      then if nxt s a =? 0 then Next (set_pc (set_nxt s a n) t (PSwing n a)) [] else Next (set_pc s t (PTail n)) []
      else UB
  | PHelp n a x => Next (set_pc (cas_tail s a x) t (PTail n)) []
  | PSwing n a => Next (set_pc (cas_tail s a n) t (PRet RDone)) []
  | DHead => Next (set_pc s t (DNext (head s))) []
  | DNext h =>
      if mem h (live s) then Next (set_pc s t (if nxt s h =? 0 then PRet (RItem None) else DSwing h (nxt s h))) [] else UB
  | DSwing h x => if head s =? h then Next (set_pc (set_head s x) t (DTail h x)) [] else Next (set_pc s t DHead) []
  | DTail h x => Next (set_pc s t (if h =? tail s then DFix h x else DRetire h x)) []
  | DFix h x => Next (set_pc (cas_tail s h x) t (DRetire h x)) []
  | DRetire h x =>
      if mem h (live s) && negb (mem h (map fst (retired s)))
      then Next (set_pc (MkSt (live s) (nxt s) (dat s) (head s) (tail s) (pinned s) ((h, pinned s) :: retired s) (pcs s)) t (DRead x)) []
      else UB
  | DRead x =>
      match mem x (live s), dat s x with
      | true, Some v => Next (set_pc (MkSt (live s) (nxt s) (fup (dat s) x None) (head s) (tail s) (pinned s) (retired s) (pcs s)) t (PRet (RItem (Some v)))) []
      | _, _ => UB
      end
  | PRet r => Next (set_pc s t PIdle) [ERet t r]
  end.

(** one step of a thread, 72-159, as above *)
Definition step (s : st) (t : nat) (a : act) : outcome :=
  match a with
  | ARun => run1 s t
  | APin =>
      match pcs s t, mem t (pinned s) with
      | PIdle, false => Next (MkSt (live s) (nxt s) (dat s) (head s) (tail s) (t :: pinned s) (retired s) (pcs s)) []
      | _, _ => Dis
      end
  | AUnpin =>
      match pcs s t, mem t (pinned s) with
      | PIdle, true =>
          Next (MkSt (live s) (nxt s) (dat s) (head s) (tail s) (remove Nat.eq_dec t (pinned s))
                     (map (fun x => (fst x, remove Nat.eq_dec t (snd x))) (retired s)) (pcs s)) []
      | _, _ => Dis
      end
  | ACall o =>
      match pcs s t, mem t (pinned s) with
      | PIdle, true => Next (set_pc s t (match o with OEnq v => PAlloc v | ODeq => DHead end)) [EInv t o]
      | _, _ => Dis
      end
  | AAlloc a =>
      match pcs s t with
      | PAlloc v =>
          if (a =? 0) || mem a (live s) then Dis
          else Next (set_pc (MkSt (a :: live s) (fup (nxt s) a 0) (fup (dat s) a (Some v)) (head s) (tail s) (pinned s) (retired s) (pcs s)) t (PTail a)) []
      | _ => Dis
      end
  | AFree a =>
      if existsb (fun x => (fst x =? a) && match snd x with [] => true | _ => false end) (retired s)
      then Next (MkSt (remove Nat.eq_dec a (live s)) (nxt s) (dat s) (head s) (tail s) (pinned s)
                      (filter (fun x => negb (fst x =? a)) (retired s)) (pcs s)) []
      else Dis
  end.

(** 162-171: dropping the queue. Dequeues until it is empty, with the guard that frees at once (the old sentinel
    is freed by line 154 before the item of the next node is read), then frees the sentinel. [None]: undefined
    behaviour. The loop is bounded by [n]. Answers the items dropped and the blocks left. *)
Fixpoint qdrop (n : nat) (s : st) : option (list A * list nat) :=
  match n with
  | 0 => None
  | S n =>
      let h := head s in
      if mem h (live s)
      then
        let x := nxt s h in
        if x =? 0 then Some ([], remove Nat.eq_dec h (live s))
        else
          let l := remove Nat.eq_dec h (live s) in
          match mem x l, dat s x with
          | true, Some v =>
              match qdrop n (MkSt l (nxt s) (fup (dat s) x None) x (if tail s =? h then x else tail s) (pinned s) (retired s) (pcs s)) with
              | Some (i, l') => Some (v :: i, l')
              | None => None
              end
          | _, _ => None
          end
      else None
  end.

(** a schedule, and the events it shows *)
Fixpoint run (s : st) (sch : list (nat * act)) : outcome :=
  match sch with
  | [] => Next s []
  | (t, a) :: r =>
      match step s t a with
      | Next s' e => match run s' r with Next s'' e' => Next s'' (e ++ e') | o => o end
      | o => o
      end
  end.
End Queue.
