(** The ordered index (a hash map into a circular doubly linked list). All paths are below
    /repo/server/src/engine/idx/stord/. *)
From Coq Require Import List Arith Bool.
Import ListNotations.

Section Stord.
Variables K V : Type.
Variable keq : K -> K -> bool.
(** the allocator: the address of a new block, given the blocks in use; 0 is the null pointer *)
Variable malloc : list nat -> nat.

(** Memory: the blocks in use, and the fields of each ([IndexSTSeqDllNode], mod.rs:140-146). [None] is a key
    or value that is not initialised or was moved out. *)
Record heap : Type := MkHeap {
  live : list nat;
  nx : nat -> nat;
  pv : nat -> nat;
  ky : nat -> option K;
  vl : nat -> option V
}.

(** Operations on memory: [None] is undefined behaviour (access to a block that is not in use, or to a
    value that is not there). *)
Definition M (A : Type) : Type := heap -> option (A * heap).
(** helper of the model, without a counterpart in the code: the monad of operations on memory *)
Definition ret {A} (a : A) : M A := fun h => Some (a, h).
(** helper of the model, without a counterpart in the code: the monad of operations on memory *)
Definition bind {A B} (x : M A) (f : A -> M B) : M B :=
  fun h => match x h with Some (a, h') => f a h' | None => None end.
(** helper of the model, without a counterpart in the code: the monad of operations on memory *)
Definition stuck {A} : M A := fun _ => None.
(** helper of the model, without a counterpart in the code: the monad of operations on memory *)
Definition isl (a : nat) (h : heap) : bool := existsb (Nat.eqb a) (live h).
(** helper of the model, without a counterpart in the code: the monad of operations on memory *)
Definition fup {A} (f : nat -> A) (a : nat) (x : A) : nat -> A := fun b => if b =? a then x else f b.

(** reading a field of a node, mod.rs:140-146 *)
Definition get_n (a : nat) : M nat := fun h => if isl a h then Some (nx h a, h) else None.
(** reading a field of a node, mod.rs:140-146 *)
Definition get_p (a : nat) : M nat := fun h => if isl a h then Some (pv h a, h) else None.
(** reading a field of a node, mod.rs:140-146 *)
Definition get_k (a : nat) : M K := fun h => if isl a h then match ky h a with Some k => Some (k, h) | None => None end else None.
(** reading a field of a node, mod.rs:140-146 *)
Definition get_v (a : nat) : M V := fun h => if isl a h then match vl h a with Some v => Some (v, h) | None => None end else None.
(** writing a field of a node, mod.rs:140-146 *)
Definition set_n (a x : nat) : M unit :=
  fun h => if isl a h then Some (tt, MkHeap (live h) (fup (nx h) a x) (pv h) (ky h) (vl h)) else None.
(** writing a field of a node, mod.rs:140-146 *)
Definition set_p (a x : nat) : M unit :=
  fun h => if isl a h then Some (tt, MkHeap (live h) (nx h) (fup (pv h) a x) (ky h) (vl h)) else None.
(** writing a field of a node, mod.rs:140-146 *)
Definition set_k (a : nat) (x : option K) : M unit :=
  fun h => if isl a h then Some (tt, MkHeap (live h) (nx h) (pv h) (fup (ky h) a x) (vl h)) else None.
(** writing a field of a node, mod.rs:140-146 *)
Definition set_v (a : nat) (x : option V) : M unit :=
  fun h => if isl a h then Some (tt, MkHeap (live h) (nx h) (pv h) (ky h) (fup (vl h) a x)) else None.
(** a new block: its contents are garbage (nothing initialised) *)
Definition new_block : M nat :=
  fun h => let a := malloc (live h) in Some (a, MkHeap (a :: live h) (nx h) (pv h) (fup (ky h) a None) (fup (vl h) a None)).
(** a block given back; giving back one that is not in use is undefined *)
Definition dealloc (a : nat) : M unit :=
  fun h => if isl a h then Some (tt, MkHeap (remove Nat.eq_dec a (live h)) (nx h) (pv h) (ky h) (vl h)) else None.

(** [IndexSTSeqDll], mod.rs:245-251: the hash map as the list of its entries (the pointer to the key and the
    pointer to the node are the same block), the sentinel, and the list of unused nodes of
    [LiberalStrategy], config.rs:33-36. *)
Record idx : Type := MkIdx { im : list nat; ih : nat; fl : nat }.

(** [true]: [LiberalStrategy] (nodes are kept for reuse), [false]: [ConservativeStrategy]; config.rs:38-101 *)
Variable liberal : bool.

Notation "'do' x <- a ; b" := (bind a (fun x => b)) (at level 200, x name, a at level 100, b at level 200).
Notation "a ;; b" := (bind a (fun _ => b)) (at level 100, right associativity).

(** [write] of a whole node: mod.rs:149-155 with null pointers *)
Definition write_node (a : nat) (k : K) (v : V) : M unit := set_k a (Some k);; set_v a (Some v);; set_n a 0;; set_p a 0.

(** [AllocStrategy::alloc], config.rs:47-65 and 94-96 *)
Definition alloc (i : idx) (k : K) (v : V) : M (idx * nat) :=
  if liberal && negb (fl i =? 0)
  then do f' <- get_n (fl i); write_node (fl i) k v;; ret (MkIdx (im i) (ih i) f', fl i)
  else do a <- new_block; write_node a k v;; ret (i, a).

(** [AllocStrategy::free], config.rs:41-45 and 90-92 *)
Definition free (i : idx) (n : nat) : M idx :=
  if liberal then set_n n (fl i);; ret (MkIdx (im i) (ih i) n) else dealloc n;; ret i.

(** [AllocStrategy::cleanup], config.rs:67-78 and 98: the loop, with the number of blocks in use as bound *)
Fixpoint cleanup_loop (fuel c : nat) : M unit :=
  match fuel with
  | O => if c =? 0 then ret tt else stuck
  | S fuel => if c =? 0 then ret tt else do x <- get_n c; dealloc c;; cleanup_loop fuel x
  end.
(** config.rs:67-78 and 98 *)
Definition cleanup (i : idx) : M idx :=
  if liberal then fun h => (cleanup_loop (length (live h)) (fl i);; ret (MkIdx (im i) (ih i) 0)) h else ret i.

(** [unlink], mod.rs:195-198 *)
Definition unlink (a : nat) : M unit :=
  do p <- get_p a; do n <- get_n a; set_n p n;;
  do n' <- get_n a; do p' <- get_p a; set_p n' p'.
(** [link], mod.rs:200-205 *)
Definition link (from to : nat) : M unit :=
  do n <- get_n from; set_n to n;; set_p to from;; set_n from to;; do n' <- get_n to; set_p n' to.

(** [ensure_sentinel], mod.rs:303-313 *)
Definition ensure_sentinel (i : idx) : M idx :=
  if ih i =? 0
  then do a <- new_block; set_p a a;; set_n a a;; ret (MkIdx (im i) a (fl i))
  else ret i.

(** lookup in the hash map: keys are compared through the pointers of the entries (mod.rs:102-114, 127-138).
    Simplified: every entry is looked at until the key is found; a hash map looks at some of them only. *)
Fixpoint lookup (k : K) (m : list nat) : M (option nat) :=
  match m with
  | [] => ret None
  | a :: r => do k' <- get_k a; if keq k' k then ret (Some a) else lookup k r
  end.

(** [__insert], mod.rs:482-503 *)
Definition insert_new (i : idx) (k : K) (v : V) : M idx :=
  do i <- ensure_sentinel i;
  do x <- alloc i k v;
  link (ih (fst x)) (snd x);; ret (MkIdx (snd x :: im (fst x)) (ih (fst x)) (fl (fst x))).
(** [_insert], mod.rs:382-387 *)
Definition insert (i : idx) (k : K) (v : V) : M (idx * bool) :=
  do e <- lookup k (im i);
  match e with Some _ => ret (i, false) | None => do i' <- insert_new i k v; ret (i', true) end.

(** [_get], mod.rs:388-402 *)
Definition get (i : idx) (k : K) : M (option V) :=
  do e <- lookup k (im i); match e with Some a => do v <- get_v a; ret (Some v) | None => ret None end.
(** [_get_mut] and a write through it, mod.rs:421-428 *)
Definition put (i : idx) (k : K) (v : V) : M bool :=
  do e <- lookup k (im i); match e with Some a => set_v a (Some v);; ret true | None => ret false end.

(** [__update] with [_refresh], mod.rs:504-529 *)
Definition update_at (i : idx) (a : nat) (v : V) : M V :=
  do old <- get_v a; set_v a (Some v);; unlink a;; link (ih i) a;; ret old.
(** [_update], mod.rs:430-446 *)
Definition update (i : idx) (k : K) (v : V) : M (option V) :=
  do e <- lookup k (im i); match e with Some a => do old <- update_at i a v; ret (Some old) | None => ret None end.
(** [_upsert], mod.rs:447-460 *)
Definition upsert (i : idx) (k : K) (v : V) : M (idx * option V) :=
  do e <- lookup k (im i);
  match e with
  | Some a => do old <- update_at i a v; ret (i, Some old)
  | None => do i' <- insert_new i k v; ret (i', None)
  end.

(** [_remove], mod.rs:461-481: key and value are moved out of the node *)
Definition remove_key (i : idx) (k : K) : M (idx * option V) :=
  do e <- lookup k (im i);
  match e with
  | None => ret (i, None)
  | Some a =>
      do k' <- get_k a; set_k a None;; do v <- get_v a; set_v a None;; unlink a;;
      do i' <- free (MkIdx (remove Nat.eq_dec a (im i)) (ih i) (fl i)) a; ret (i', Some v)
  end.

(** [drop_nodes_full], mod.rs:318-326: [_drop] drops the key and the value, so they have to be there *)
Fixpoint drop_loop (fuel h c : nat) : M unit :=
  match fuel with
  | O => if c =? h then ret tt else stuck
  | S fuel => if c =? h then ret tt else do x <- get_n c; do k <- get_k c; do v <- get_v c; dealloc c;; drop_loop fuel h x
  end.
(** mod.rs:318-326 *)
Definition drop_nodes (h : nat) : M unit := fun s => (do c <- get_n h; drop_loop (length (live s)) h c) s.

(** [_clear], mod.rs:531-542 *)
Definition clear (i : idx) : M idx :=
  if ih i =? 0 then ret (MkIdx [] (ih i) (fl i))
  else drop_nodes (ih i);; set_p (ih i) (ih i);; set_n (ih i) (ih i);; ret (MkIdx [] (ih i) (fl i)).

(** [Drop], mod.rs:546-557 *)
Definition drop_idx (i : idx) : M unit :=
  (if ih i =? 0 then ret tt else drop_nodes (ih i);; dealloc (ih i));; do i' <- cleanup i; ret tt.

(** [IndexSTSeqDllIterOrdBase], iter.rs:379-432: next and last pointer and the number of items left *)
Record iter : Type := MkIter { it_h : nat; it_t : nat; it_r : nat }.
(** iter.rs:388-403 *)
Definition iter_new (i : idx) : M iter :=
  if ih i =? 0 then ret (MkIter 0 (ih i) (length (im i)))
  else do p <- get_p (ih i); ret (MkIter p (ih i) (length (im i))).
(** iter.rs:404-417 *)
Definition iter_next (t : iter) : M (option (K * V) * iter) :=
  if it_h t =? it_t t then ret (None, t)
  else match it_r t with
       | O => stuck
       | S r => do k <- get_k (it_h t); do v <- get_v (it_h t); do p <- get_p (it_h t); ret (Some (k, v), MkIter p (it_t t) r)
       end.
(** iter.rs:418-431 *)
Definition iter_next_back (t : iter) : M (option (K * V) * iter) :=
  if it_h t =? it_t t then ret (None, t)
  else match it_r t with
       | O => stuck
       | S r => do n <- get_n (it_t t); do k <- get_k n; do v <- get_v n; ret (Some (k, v), MkIter (it_h t) n r)
       end.
(** a client of the iterator: [true] asks for the next item from the front, [false] from the back; the answer
    with the number of items left as reported by [len], iter.rs:464-470 *)
Fixpoint iter_run (t : iter) (ds : list bool) : M (list (option (K * V) * nat)) :=
  match ds with
  | [] => ret []
  | d :: r =>
      do x <- (if d then iter_next t else iter_next_back t);
      do l <- iter_run (snd x) r; ret ((fst x, it_r (snd x)) :: l)
  end.
(** a new iterator and its client, iter.rs:387-470 *)
Definition iterate (i : idx) (ds : list bool) : M (list (option (K * V) * nat)) := do t <- iter_new i; iter_run t ds.

(** the iterators in no particular order, iter.rs:50-200: that of the hash map *)
Fixpoint read_all (m : list nat) : M (list (K * V)) :=
  match m with [] => ret [] | a :: r => do k <- get_k a; do v <- get_v a; do l <- read_all r; ret ((k, v) :: l) end.
(** iter.rs:50-200 *)
Definition unordered (i : idx) : M (list (K * V)) := read_all (im i).

(** [OrderedOwnedIteratorRaw], iter.rs:266-336: the iterator that takes the map apart. [next] gives the node
    back to the allocator and then reads the pointer in it (305-308). *)
Definition own_new (i : idx) : M iter :=
  do i <- cleanup i;
  if ih i =? 0 then ret (MkIter 0 (ih i) (length (im i)))
  else do p <- get_p (ih i); ret (MkIter p (ih i) (length (im i))).
(** iter.rs:297-312 *)
Definition own_next (t : iter) : M (option (K * V) * iter) :=
  if it_h t =? it_t t then ret (None, t)
  else match it_r t with
       | O => stuck
       | S r =>
           do k <- get_k (it_h t); do v <- get_v (it_h t); dealloc (it_h t);;
           do p <- get_p (it_h t); ret (Some (k, v), MkIter p (it_t t) r)
       end.

(** [PartialEq], mod.rs:805-813: [None] of the result is the panic of [unwrap] *)
Fixpoint eq_loop (veq : V -> V -> bool) (other : idx) (l : list (K * V)) : M (option bool) :=
  match l with
  | [] => ret (Some true)
  | (k, v) :: r =>
      do o <- get other k;
      match o with
      | None => ret None
      | Some v' => if veq v' v then eq_loop veq other r else ret (Some false)
      end
  end.

(** * Histories *)
Inductive op : Type :=
| OInsert (k : K) (v : V) | OPut (k : K) (v : V) | OUpdate (k : K) (v : V) | OUpsert (k : K) (v : V)
| ORemove (k : K) | OClear | OCompact | OGet (k : K) | OLen | OIter (ds : list bool).
(** what the operations answer *)
Inductive out : Type :=
| RBool (b : bool) | RVal (v : option V) | RUnit | RNum (n : nat) | RIter (l : list (option (K * V) * nat)).

(** [idx_init], mod.rs:574-577: no sentinel yet *)
Definition empty_idx : idx := MkIdx [] 0 0.

(** one operation; [st_compact] is [vacuum_full], mod.rs:370-379 *)
Definition exec (i : idx) (o : op) : M (idx * out) :=
  match o with
  | OInsert k v => do x <- insert i k v; ret (fst x, RBool (snd x))
  | OPut k v => do b <- put i k v; ret (i, RBool b)
  | OUpdate k v => do x <- update i k v; ret (i, RVal x)
  | OUpsert k v => do x <- upsert i k v; ret (fst x, RVal (snd x))
  | ORemove k => do x <- remove_key i k; ret (fst x, RVal (snd x))
  | OClear => do i' <- clear i; ret (i', RUnit)
  | OCompact => do i' <- cleanup i; ret (i', RUnit)
  | OGet k => do v <- get i k; ret (i, RVal v)
  | OLen => ret (i, RNum (length (im i)))
  | OIter ds => do l <- iterate i ds; ret (i, RIter l)
  end.
(** operations one after the other *)
Fixpoint exec_all (i : idx) (os : list op) : M (idx * list out) :=
  match os with
  | [] => ret (i, [])
  | o :: r => do x <- exec i o; do y <- exec_all (fst x) r; ret (fst y, snd x :: snd y)
  end.
End Stord.
