(** The row index (a concurrent hash tree) under every schedule. All lines are those of
    /repo/server/src/engine/idx/mtchm/, mod.rs if no file is named. *)
From Coq Require Import List Arith NArith Bool.
From Verif Require Import MtModel.
Import ListNotations.
Local Open Scope nat_scope.

(** 142-144, meta.rs 124-129: what a slot points to: nothing, a leaf (flag DATA), a branch; and the flag
    PENDING_DELETE *)
Inductive ptr : Type := PNull | PLeaf (a : nat) | PBr (a : nat).
(** an atomic pointer with its tag bit, 142-144, meta.rs 124-129 *)
Definition slot : Type := (ptr * bool)%type.
(** [current], [parent]: the root (200-202) or a slot of a branch *)
Inductive loc : Type := LRoot | LSlot (a i : nat).

(** comparison of pointers by compare_exchange *)
Definition ptr_eqb (p q : ptr) : bool :=
  match p, q with
  | PNull, PNull => true
  | PLeaf a, PLeaf b => a =? b
  | PBr a, PBr b => a =? b
  | _, _ => false
  end.
(** helper of the model, without a counterpart in the code: a function changed at one address *)
Definition fup {B} (f : nat -> B) (a : nat) (x : B) : nat -> B := fun b => if b =? a then x else f b.

Section Cht.
Variables K V : Type.
Variable keq : K -> K -> bool.
(** 238-247; any function *)
Variable hash : K -> N.
Local Notation elem := (K * V)%type.

(** the calls: patch (269), remove (496), lookup (456), a whole iteration (iter.rs 253-302), len (221). The
    functions of imp.rs 105-213 answer a part of what these answer. *)
Inductive op : Type := OWrite (m : wmode) (e : elem) | ODel (k : K) | OGet (k : K) | OScan | OLen.
(** what the calls above answer: imp.rs 105-210 *)
Inductive res : Type := RElem (e : option elem) | RList (l : list elem) | RLen (n : N).

(** what a write wants to put in place of what it read (302, 342, 362, 394): a leaf (then whether the length
    goes up, and the answer) or a branch with the leaf it read in one slot *)
Inductive neww : Type := NLeaf (d : list elem) (up : bool) (r : option elem) | NSplit (i : nat).
(** where to go on after [compress]: a write or a removal starts again at the root (289-292, 518-520), or a
    removal looks at the next level (573-593) *)
Inductive cont : Type := KWrite (m : wmode) (e : elem) | KDel (k : K) | KLoop (r : option elem) (st : list (loc * nat)).

(** where a thread is: the point before its next access to shared memory, with its local variables. [n] is the
    number of branches passed ([level] is [4 n]). *)
Inductive pc : Type :=
| Idle
| WLoad (m : wmode) (e : elem) (l : loc) (n : nat) (par : option (loc * nat)) (* 276 *)
| WCas (m : wmode) (e : elem) (l : loc) (n : nat) (par : option (loc * nat)) (old : ptr) (w : neww) (* 302, 342, 362, 394 *)
| GLoad (k : K) (l : loc) (h : N) (* 460 *)
| RLoad (k : K) (l : loc) (n : nat) (st : list (loc * nat)) (* 502 *)
| RCas (k : K) (l : loc) (n : nat) (st : list (loc * nat)) (a : nat) (d : list elem) (r : option elem) (* 550 *)
| RCount (r : option elem) (st : list (loc * nat)) (i c : nat) (* 573-584 *)
| Freeze (ct : cont) (p : loc) (c : nat) (acc : list (ptr * nat)) (* 685-705 *)
| CCas (ct : cont) (p : loc) (c : nat) (acc : list (ptr * nat)) (* 732 *)
| Incr (* 305, 408 *)
| Decr (r : option elem) (* 594 *)
| SInit (* iter.rs 255 *)
| SRun (st : list (ptr * nat)) (acc : list elem) (* iter.rs 264-302 *)
| LLoad (* 222 *)
| Ret (r : res).

(** a block: a leaf with its elements, never written again; or a branch with its slots *)
Inductive block : Type := BNone | BLeaf (d : list elem) | BBr (f : nat -> slot).

(** Memory. [next]: the first address never used. [rtd]: when a block was handed to the collector. Simplified: a
    block gets an address no block had before. *)
Record heap : Type := MkHeap { root : ptr; mem : nat -> block; next : nat; rtd : nat -> option nat }.
(** [time] counts steps; [pinned], [pin]: the threads inside a guard, and since when *)
Record st : Type := MkSt { hp : heap; time : nat; pinned : list nat; pin : nat -> nat; len : N; pcs : nat -> pc }.
(** 210-219 *)
Definition init : st := MkSt (MkHeap PNull (fun _ => BNone) 0 (fun _ => None)) 0 [] (fun _ => 0) 0 (fun _ => Idle).

(** A block that was handed to the collector before a thread entered its guard (at [pt]) may be gone: this thread
    must not touch it. The other blocks are kept by the collector as long as the thread is inside. *)
Definition alive (h : heap) (pt a : nat) : bool := match rtd h a with None => true | Some r => pt <? r end.

(** helper of the model, without a counterpart in the code: one field replaced *)
Definition set_pc (s : st) (h : heap) (t : nat) (p : pc) : st :=
  MkSt h (time s) (pinned s) (pin s) (len s) (fup (pcs s) t p).
(** helper of the model, without a counterpart in the code: one field replaced *)
Definition set_len (s : st) (n : N) : st := MkSt (hp s) (time s) (pinned s) (pin s) n (pcs s).
(** write a slot *)
Definition wr (h : heap) (l : loc) (x : slot) : heap :=
  match l with
  | LRoot => MkHeap (fst x) (mem h) (next h) (rtd h)
  | LSlot a i =>
      match mem h a with
      | BBr f => MkHeap (root h) (fup (mem h) a (BBr (fup f i x))) (next h) (rtd h)
      | _ => h
      end
  end.
(** a new block *)
Definition alloc (h : heap) (b : block) : heap := MkHeap (root h) (fup (mem h) (next h) b) (S (next h)) (rtd h).
(** [defer_destroy]. Simplified: in the same step as the exchange that took the block out; later would only keep
    it for more threads. *)
Definition retire (h : heap) (tm a : nat) : heap := MkHeap (root h) (mem h) (next h) (fup (rtd h) a (Some tm)).

(** load of a slot by a thread inside its guard since [pt]; [None]: not a branch in memory (undefined behaviour) *)
Definition rd (h : heap) (pt : nat) (l : loc) : option slot :=
  match l with
  | LRoot => Some (root h, false)
  | LSlot a i => match mem h a with BBr f => if alive h pt a then Some (f i) else None | _ => None end
  end.
(** 636-641: [read_data]. Simplified: in the step that loaded the address (leaves are not written, and a leaf
    handed to the collector later is kept). *)
Definition rdleaf (h : heap) (pt a : nat) : option (list elem) :=
  match mem h a with BLeaf d => if alive h pt a then Some d else None | _ => None end.

(** [Dis]: not a possible choice; [Bad]: undefined behaviour or a panic *)
Inductive event : Type := EInv (t : nat) (o : op) | ERet (t : nat) (r : res).
(** what a step can come to; panics and undefined behaviour of the code are [Bad] *)
Inductive outcome : Type := Dis | Bad | Next (s : st) (e : list event).
(** helper of the model, without a counterpart in the code: the thread goes on without an event *)
Definition go (s : st) (t : nat) (p : pc) : outcome := Next (set_pc s (hp s) t p) [].
(** the same after a write to memory *)
Definition goh (s : st) (h : heap) (t : nat) (p : pc) : outcome := Next (set_pc s h t p) [].

(** 429, 601: the slot to follow *)
Definition chunk_at (k : K) (n : nat) : nat := chunk (hash k) (4 * N.of_nat n).

(** 326-424: a write that has read a leaf with data [d] *)
Inductive plan : Type := PRet (r : option elem) | PCas (w : neww) | PPanic.
(** 326-424, by mode (meta of imp.rs 105-210) *)
Definition wleaf (m : wmode) (e : elem) (n : nat) (d : list elem) : plan :=
  match d with
  | [] => PPanic
  | e0 :: _ =>
      if negb (keq (fst e) (fst e0)) && (n <? 16)
      then match m with Refresh => PRet None | _ => PCas (NSplit (chunk_at (fst e0) n)) end
      else
        match position K V keq (fst e) d with
        | Some i =>
            match nth_error d i with
            | None => PPanic
            | Some o =>
                match m with
                | Fresh => PRet (Some o)
                | _ => PCas (NLeaf ((firstn i d ++ skipn (S i) d) ++ [e]) false (Some o))
                end
            end
        | None => match m with Refresh => PRet None | _ => PCas (NLeaf (d ++ [e]) true None) end
        end
  end.
(** 276-435: a load of a write *)
Definition wload (s : st) (t : nat) (m : wmode) (e : elem) (l : loc) (n : nat) (par : option (loc * nat)) : outcome :=
  match rd (hp s) (pin s t) l with
  | None => Bad
  | Some (p, true) => match par with Some (pl, c) => go s t (Freeze (KWrite m e) pl c []) | None => Bad end
  | Some (PNull, false) =>
      match m with Refresh => go s t (Ret (RElem None)) | _ => go s t (WCas m e l n par PNull (NLeaf [e] true None)) end
  | Some (PLeaf a, false) =>
      match rdleaf (hp s) (pin s t) a with
      | None => Bad
      | Some d =>
          match wleaf m e n d with
          | PPanic => Bad
          | PRet r => go s t (Ret (RElem r))
          | PCas w => go s t (WCas m e l n par (PLeaf a) w)
          end
      end
  | Some (PBr a, false) =>
      if n <? 16 then go s t (WLoad m e (LSlot a (chunk_at (fst e) n)) (S n) (Some (l, a))) else Bad
  end.
(** compare_exchange of a slot: [None] is undefined behaviour *)
Definition cas_ok (s : st) (t : nat) (l : loc) (old : ptr) : option bool :=
  match rd (hp s) (pin s t) l with None => None | Some (p, g) => Some (negb g && ptr_eqb p old) end.
(** hand what was in the slot to the collector; twice is undefined behaviour *)
Definition out (h : heap) (tm : nat) (p : ptr) : option heap :=
  match p with
  | PNull => Some h
  | PLeaf a | PBr a => match rtd h a with None => Some (retire h tm a) | Some _ => None end
  end.
(** 302-316, 342, 362-386, 394-418: the exchange of a write *)
Definition wcas (s : st) (t : nat) (m : wmode) (e : elem) (l : loc) (n : nat) (par : option (loc * nat)) (old : ptr) (w : neww) : outcome :=
  match cas_ok s t l old with
  | None => Bad
  | Some false => go s t (WLoad m e l n par)
  | Some true =>
      let h := hp s in
      let a := next h in
      match w with
      | NLeaf d up r =>
          match out (wr (alloc h (BLeaf d)) l (PLeaf a, false)) (S (time s)) old with
          | None => Bad
          | Some h' => goh s h' t (if up then Incr else Ret (RElem r))
          end
      | NSplit i => goh s (wr (alloc h (BBr (fup (fun _ => (PNull, false)) i (old, false)))) l (PBr a, false)) t (WLoad m e l n par)
      end
  end.

(** 456-485: a load of a lookup (the flag PENDING_DELETE is not looked at) *)
Definition gload (s : st) (t : nat) (k : K) (l : loc) (h : N) : outcome :=
  match rd (hp s) (pin s t) l with
  | None => Bad
  | Some (PNull, _) => go s t (Ret (RElem None))
  | Some (PLeaf a, _) =>
      match rdleaf (hp s) (pin s t) a with None => Bad | Some d => go s t (Ret (RElem (find (fun e => keq k (fst e)) d))) end
  | Some (PBr a, _) => go s t (GLoad k (LSlot a (N.to_nat (N.land h mask))) (N.shiftr h branch_lg))
  end.

(** 502-605: a load of a removal; the stack of levels has 16 places *)
Definition rload (s : st) (t : nat) (k : K) (l : loc) (n : nat) (lv : list (loc * nat)) : outcome :=
  match rd (hp s) (pin s t) l with
  | None => Bad
  | Some (PNull, _) => go s t (Ret (RElem None))
  | Some (_, true) => match lv with (pl, c) :: _ => go s t (Freeze (KDel k) pl c []) | [] => Bad end
  | Some (PLeaf a, false) =>
      match rdleaf (hp s) (pin s t) a with
      | None => Bad
      | Some d =>
          go s t (RCas k l n lv a (filter (fun e => negb (keq k (fst e))) d)
                    (fold_left (fun x e => if keq k (fst e) then Some e else x) d None))
      end
  | Some (PBr a, false) =>
      if (length lv <? branch_mx) && (n <? 16) then go s t (RLoad k (LSlot a (chunk_at k n)) (S n) ((l, a) :: lv)) else Bad
  end.
(** 573: the next level *)
Definition loop (r : option elem) (lv : list (loc * nat)) : pc := match lv with [] => Decr r | _ => RCount r lv 0 0 end.
(** 550-571: the exchange of a removal *)
Definition rcas (s : st) (t : nat) (k : K) (l : loc) (n : nat) (lv : list (loc * nat)) (a : nat) (d : list elem) (r : option elem) : outcome :=
  match cas_ok s t l (PLeaf a) with
  | None => Bad
  | Some false => go s t (RLoad k l n lv)
  | Some true =>
      let h := hp s in
      let h1 := match d with [] => wr h l (PNull, false) | _ => wr (alloc h (BLeaf d)) l (PLeaf (next h), false) end in
      match out h1 (S (time s)) (PLeaf a) with None => Bad | Some h' => goh s h' t (loop r lv) end
  end.
(** helper of the model, without a counterpart in the code: test of a pointer, [is_null] *)
Definition nonnull (p : ptr) : bool := match p with PNull => false | _ => true end.
(** 574-587: count the slots in use *)
Definition rcount (s : st) (t : nat) (r : option elem) (lv : list (loc * nat)) (i c : nat) : outcome :=
  match lv with
  | [] => Bad
  | (p, b) :: rest =>
      if i <? branch_mx
      then match rd (hp s) (pin s t) (LSlot b i) with
           | None => Bad
           | Some (x, _) => go s t (RCount r lv (S i) (if nonnull x then S c else c))
           end
      else if 1 <? c then go s t (Decr r) else go s t (Freeze (KLoop r rest) p b [])
  end.

(** 684-705: fetch_or on the next slot; [acc]: what the slots held, with the number of elements or branches
    counted for each *)
Definition freeze (s : st) (t : nat) (ct : cont) (p : loc) (c : nat) (acc : list (ptr * nat)) : outcome :=
  let i := length acc in
  if i <? branch_mx
  then
    match rd (hp s) (pin s t) (LSlot c i) with
    | None => Bad
    | Some (x, _) =>
        match match x with
              | PNull => Some 0
              | PLeaf a => option_map (fun d => length d) (rdleaf (hp s) (pin s t) a)
              | PBr _ => Some 1
              end with
        | None => Bad
        | Some w => goh s (wr (hp s) (LSlot c i) (x, true)) t (Freeze ct p c (acc ++ [(x, w)]))
        end
    end
  else go s t (CCas ct p c acc).
(** 679-682, 690-702 *)
Definition count (acc : list (ptr * nat)) : nat := fold_right (fun x n => snd x + n) 0 acc.
(** 690-702: the leaf that is left *)
Definition last_leaf (acc : list (ptr * nat)) : option nat :=
  fold_left (fun a x => match fst x with PLeaf b => Some b | _ => a end) acc None.
(** 679-682: no branch among the slots *)
Definition only_leaves (acc : list (ptr * nat)) : bool :=
  forallb (fun x => match fst x with PBr _ => false | _ => true end) acc.
(** 711-729 *)
Inductive cres : Type := CLeaf (a : nat) | CNull | CCopy.
(** 711-729: what a compression puts in place of the node *)
Definition decide (acc : list (ptr * nat)) : cres :=
  match last_leaf acc with
  | Some a => if only_leaves acc && (count acc =? 1) then CLeaf a else CCopy
  | None => if count acc =? 0 then CNull else CCopy
  end.
(** after [compress]: 289-292, 518-520, 585-592 *)
Definition resume (ct : cont) (restored : bool) : pc :=
  match ct with
  | KWrite m e => WLoad m e LRoot 0 None
  | KDel k => RLoad k LRoot 0 []
  | KLoop r lv => if restored then Decr r else loop r lv
  end.
(** 731-744 *)
Definition ccas (s : st) (t : nat) (ct : cont) (p : loc) (c : nat) (acc : list (ptr * nat)) : outcome :=
  match cas_ok s t p (PBr c) with
  | None => Bad
  | Some false => go s t (resume ct false)
  | Some true =>
      let h := hp s in
      let '(h1, restored) :=
        match decide acc with
        | CLeaf a => (wr h p (PLeaf a, false), false)
        | CNull => (wr h p (PNull, false), false)
        | CCopy => (wr (alloc h (BBr (fun i => (fst (nth i acc (PNull, 0)), false)))) p (PBr (next h), false), true)
        end in
      match out h1 (S (time s)) (PBr c) with None => Bad | Some h' => goh s h' t (resume ct restored) end
  end.

(** iter.rs 264-302: the stack has 17 places *)
Definition srun (s : st) (t : nat) (sk : list (ptr * nat)) (acc : list elem) : outcome :=
  match sk with
  | [] => go s t (Ret (RList (rev acc)))
  | (PNull, _) :: r => go s t (SRun r acc)
  | (PLeaf a, i) :: r =>
      match rdleaf (hp s) (pin s t) a with
      | None => Bad
      | Some d => match nth_error d i with Some e => go s t (SRun ((PLeaf a, S i) :: r) (e :: acc)) | None => go s t (SRun r acc) end
      end
  | (PBr a, i) :: r =>
      if i <? max_tree_height
      then
        match rd (hp s) (pin s t) (LSlot a i) with
        | None => Bad
        | Some (x, _) => if length sk <? S branch_mx then go s t (SRun ((x, 0) :: (PBr a, S i) :: r) acc) else Bad
        end
      else go s t (SRun r acc)
  end.

(** one step of a thread. Simplified: memory is sequentially consistent (the code asks for acquire and release
    only); every load, exchange or fetch_or is one step. *)
Definition run1 (s : st) (t : nat) : outcome :=
  match pcs s t with
  | Idle => Dis
  | WLoad m e l n par => wload s t m e l n par
  | WCas m e l n par old w => wcas s t m e l n par old w
  | GLoad k l h => gload s t k l h
  | RLoad k l n lv => rload s t k l n lv
  | RCas k l n lv a d r => rcas s t k l n lv a d r
  | RCount r lv i c => rcount s t r lv i c
  | Freeze ct p c acc => freeze s t ct p c acc
  | CCas ct p c acc => ccas s t ct p c acc
  | Incr => Next (set_len (set_pc s (hp s) t (Ret (RElem None))) (incr (len s))) []
  | Decr r => Next (set_len (set_pc s (hp s) t (Ret (RElem r))) (if is_some r then decr (len s) else len s)) []
  | SInit => go s t (SRun [(root (hp s), 0)] [])
  | SRun sk acc => srun s t sk acc
  | LLoad => go s t (Ret (RLen (len s)))
  | Ret r => Next (set_pc s (hp s) t Idle) [ERet t r]
  end.

(** the first step of a call *)
Definition start (o : op) : pc :=
  match o with
  | OWrite m e => WLoad m e LRoot 0 None
  | ODel k => RLoad k LRoot 0 []
  | OGet k => GLoad k LRoot (hash k)
  | OScan => SInit
  | OLen => LLoad
  end.
(** What the scheduler can choose: a thread enters or leaves a guard (crossbeam_epoch::pin), makes a call, or
    takes its next step. *)
Inductive act : Type := APin | AUnpin | ACall (o : op) | ARun.
(** helper of the model, without a counterpart in the code: membership *)
Definition inb (t : nat) (l : list nat) : bool := existsb (Nat.eqb t) l.
(** one step of a thread, by the definitions above (269-502, iter.rs 253-302) *)
Definition step (s : st) (t : nat) (a : act) : outcome :=
  match a with
  | ARun => run1 s t
  | APin =>
      match pcs s t, inb t (pinned s) with
      | Idle, false => Next (MkSt (hp s) (time s) (t :: pinned s) (fup (pin s) t (time s)) (len s) (pcs s)) []
      | _, _ => Dis
      end
  | AUnpin =>
      match pcs s t, inb t (pinned s) with
      | Idle, true => Next (MkSt (hp s) (time s) (List.remove Nat.eq_dec t (pinned s)) (pin s) (len s) (pcs s)) []
      | _, _ => Dis
      end
  | ACall o =>
      match pcs s t, inb t (pinned s) with
      | Idle, true => Next (set_pc s (hp s) t (start o)) [EInv t o]
      | _, _ => Dis
      end
  end.
(** helper of the model, without a counterpart in the code: the clock that orders guards and retirements *)
Definition tick (s : st) : st :=
  MkSt (hp s) (S (time s)) (pinned s) (pin s) (len s) (pcs s).

(** a schedule, and the events it shows *)
Fixpoint run (s : st) (sch : list (nat * act)) : outcome :=
  match sch with
  | [] => Next s []
  | (t, a) :: r =>
      match step s t a with
      | Next s' e => match run (tick s') r with Next s'' e' => Next s'' (e ++ e') | o => o end
      | o => o
      end
  end.
End Cht.
