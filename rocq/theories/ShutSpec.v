(** What C95-C97 say about the tasks of the server. Nothing here uses the step function of ShutModel.v except through runs. *)
From Coq Require Import List NArith Bool.
From Verif Require Import ShutModel.
Import ListNotations.

(** the changes made to model [m], in order *)
Definition made (c : cfg) (m : nat) : list N := map snd (filter (fun p => Nat.eqb (fst p) m) (done c)).

(** C95 for one run: whatever was answered with success is in the data file of its model *)
Definition durable (c : cfg) : Prop := forall x, In x (acked c) -> exists m, In (m, x) (done c) /\ In x (disk (md c m)).

(** a state that some interleaving reaches *)
Definition reach (max nm listeners : nat) (c : cfg) : Prop := exists ls, srun max nm (cfg0 listeners) ls = Some c.

(** the disk never fails *)
Definition obeys (l : lab) : bool := match l with LHpRun ok | LLpWrite ok => ok | _ => true end.
(** the disk always fails *)
Definition fails (l : lab) : bool := match l with LHpRun ok | LLpWrite ok => negb ok | _ => true end.

(** a statement is under way *)
Definition busy (h : hst) : bool := match h with HRun _ _ | HPush _ _ | HFull _ _ _ => true | _ => false end.
(** an executor has seen the signal *)
Definition winding (c : cfg) : bool :=
  match hpx c with HpDrain | HpExit | HpRun _ true => true | _ => false end ||
  match lpx c with LpScan _ true | LpWrite _ _ _ true | LpExit | LpDead => true | _ => false end.
(** the rule that would have to be kept: an executor sees the signal only when no statement is under way, and none arrives later *)
Definition rule (c : cfg) (l : lab) : bool :=
  match l with LHpSig | LLpSig => negb (existsb busy (hs c)) | LRecv _ _ => negb (winding c) | _ => true end.
Fixpoint ruled (max nm : nat) (c : cfg) (ls : list lab) : bool :=
  match ls with
  | [] => true
  | l :: ls' => obeys l && rule c l && match sstep max nm c l with Some c' => ruled max nm c' ls' | None => true end
  end.

(** a recovery is waiting or under way *)
Definition recovering (c : cfg) : Prop := exists m, In (TRecover m) (que c) \/ exists b, hpx c = HpRun (TRecover m) b.
