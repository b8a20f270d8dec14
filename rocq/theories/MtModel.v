(** The row index (a hash tree), one operation at a time. All lines are those of
    /repo/server/src/engine/idx/mtchm/; threads running together are in ChtModel.v. *)
From Coq Require Import List Arith NArith Bool.
Import ListNotations.
Local Open Scope nat_scope.

(** patch.rs 33-41: what a write does if the key exists or not *)
Inductive wmode : Type := Fresh | Refresh | Any.

(** meta.rs 44-62, 66-70 (Config2B): 16 branches, 4 bits per level, 64 bits *)
Definition branch_mx : nat := 16.
(** meta.rs 44-62: 4 bits per level *)
Definition branch_lg : N := 4.
(** meta.rs 44-62: the mask of a level *)
Definition mask : N := 15.
(** meta.rs 44-62: bits of a hash *)
Definition height_ub : N := 64.
(** meta.rs 44-62: the number of levels *)
Definition max_tree_height : nat := 16.

(** mod.rs 337, 429, 601: the branch to follow *)
Definition chunk (h : N) (level : N) : nat := N.to_nat (N.land (N.shiftr h level) mask).

(** mod.rs 340: write one slot of an array *)
Fixpoint set_nth {B} (i : nat) (x : B) (l : list B) : list B :=
  match l, i with
  | [], _ => []
  | _ :: r, 0 => x :: r
  | y :: r, S i => y :: set_nth i x r
  end.

Section Tree.
Variables K V : Type.
Variable keq : K -> K -> bool.
(** mod.rs 238-247: the hash of a key; any function *)
Variable hash : K -> N.
Local Notation elem := (K * V)%type.

(** mod.rs 142-144, 200-206 and meta.rs 124-129: a null pointer, a leaf with its elements, a branch with its
    slots. Simplified: a tree is a value; sharing and reclamation are not in this file. *)
Inductive tree : Type := TNull | TLeaf (d : list elem) | TBranch (b : list tree).

(** mod.rs 146-160 *)
Definition null_branch : list tree := repeat TNull branch_mx.

(** mod.rs 348: index of the first element with the key *)
Fixpoint position (k : K) (d : list elem) : option nat :=
  match d with
  | [] => None
  | e :: r => if keq k (fst e) then Some 0 else option_map S (position k r)
  end.

(** mod.rs 269-437: write element [e]. Answers the new tree, whether the length goes up, and the element that
    was there. [None] is a panic (an index out of bounds, a shift by 64). [n] bounds the turns of the loop. *)
Fixpoint patch (n : nat) (level : N) (t : tree) (e : elem) (m : wmode) : option (tree * bool * option elem) :=
  match n with
  | 0 => None
  | S n =>
      match t with
      | TNull =>
          match m with
          | Refresh => Some (TNull, false, None)
          | _ => Some (TLeaf [e], true, None)
          end
      | TLeaf d =>
          match d with
          | [] => None
          | e0 :: _ =>
              if negb (keq (fst e) (fst e0)) && (level <? height_ub)%N
              then
                match m with
                | Refresh => Some (t, false, None)
                | _ => patch n level (TBranch (set_nth (chunk (hash (fst e0)) level) t null_branch)) e m
                end
              else
                match position (fst e) d with
                | Some i =>
                    match nth_error d i with
                    | None => None
                    | Some old =>
                        match m with
                        | Fresh => Some (t, false, Some old)
                        | _ => Some (TLeaf ((firstn i d ++ skipn (S i) d) ++ [e]), false, Some old)
                        end
                    end
                | None =>
                    match m with
                    | Refresh => Some (t, false, None)
                    | _ => Some (TLeaf (d ++ [e]), true, None)
                    end
                end
          end
      | TBranch b =>
          if (level <? height_ub)%N
          then
            let i := chunk (hash (fst e)) level in
            match nth_error b i with
            | None => None
            | Some c =>
                match patch n (level + branch_lg) c e m with
                | Some (c', up, old) => Some (TBranch (set_nth i c' b), up, old)
                | None => None
                end
            end
          else None
      end
  end.

(** mod.rs 456-485: the hash is shifted on the way *)
Fixpoint lookup (n : nat) (h : N) (t : tree) (k : K) : option (option elem) :=
  match n with
  | 0 => None
  | S n =>
      match t with
      | TNull => Some None
      | TLeaf d => Some (find (fun e => keq k (fst e)) d)
      | TBranch b =>
          match nth_error b (N.to_nat (N.land h mask)) with
          | None => None
          | Some c => lookup n (N.shiftr h branch_lg) c k
          end
      end
  end.

(** mod.rs 580: [is_null] *)
Definition is_null (t : tree) : bool := match t with TNull => true | _ => false end.

(** mod.rs 679-705: elements and branches below a branch, the last leaf, whether there are only leaves *)
Fixpoint survey (b : list tree) (cnt : nat) (last : option tree) (only : bool) : nat * option tree * bool :=
  match b with
  | [] => (cnt, last, only)
  | TNull :: r => survey r cnt last only
  | TLeaf d :: r => survey r (cnt + length d) (Some (TLeaf d)) only
  | TBranch x :: r => survey r (S cnt) last false
  end.
(** mod.rs 667-745: try to do without a branch. Answers what takes its place and whether it was only copied *)
Definition compress (b : list tree) : tree * bool :=
  match survey b 0 None true with
  | (1, Some l, true) => (l, false)
  | (0, None, _) => (TNull, false)
  | _ => (TBranch b, true)
  end.

(** mod.rs 496-607: remove a key. [depth]: branches on the stack so far ([UArray] of 16, pushing more panics).
    Answers the new tree, the element removed, and whether compression goes on above. *)
Fixpoint remove (n depth : nat) (level : N) (t : tree) (k : K) : option (tree * option elem * bool) :=
  match n with
  | 0 => None
  | S n =>
      match t with
      | TNull => Some (TNull, None, false)
      | TLeaf d =>
          let r := filter (fun e => negb (keq k (fst e))) d in
          let ret := fold_left (fun a e => if keq k (fst e) then Some e else a) d None in
          Some (match r with [] => TNull | _ => TLeaf r end, ret, true)
      | TBranch b =>
          if (depth <? branch_mx) && (level <? height_ub)%N
          then
            let i := chunk (hash k) level in
            match nth_error b i with
            | None => None
            | Some c =>
                match remove n (S depth) (level + branch_lg) c k with
                | None => None
                | Some (c', ret, go) =>
                    let b' := set_nth i c' b in
                    if go
                    then
                      if 1 <? length (filter (fun x => negb (is_null x)) b') then Some (TBranch b', ret, false)
                      else let (t', restored) := compress b' in Some (t', ret, negb restored)
                    else Some (TBranch b', ret, false)
                end
            end
          else None
      end
  end.

(** mod.rs 200-206: root and length *)
Record idx : Type := MkIdx { root : tree; len : N }.
(** mod.rs 208-219 *)
Definition idx_new : idx := MkIdx TNull 0.

(** turns of a loop that are enough (proved) *)
Definition turns : nat := 40.
(** mod.rs 612-617: the length wraps around *)
Definition incr (n : N) : N := ((n + 1) mod 2 ^ 64)%N.
(** mod.rs 612-617: subtracting one *)
Definition decr (n : N) : N := ((n + (2 ^ 64 - 1)) mod 2 ^ 64)%N.

(** imp.rs 117-213 with patch.rs 60-169, 171-275 and access.rs 33-125: the operations of the index *)
Inductive op : Type := OInsert (e : elem) | OUpsert (e : elem) | OUpdate (e : elem) | OUpdateRet (e : elem)
  | OContains (k : K) | OGet (k : K) | OGetElem (k : K) | ODelete (k : K) | ODeleteRet (k : K) | ODeleteEntry (k : K) | OLen.
(** imp.rs 117-213: the answers *)
Inductive res : Type := RUnit | RBool (b : bool) | RVal (v : option V) | RElem (e : option elem) | RLen (n : N).

(** an answer that says whether there is an element: patch.rs 76-82, 138-147, 204-210, access.rs 61-66 *)
Definition is_some {B} (x : option B) : bool := match x with Some _ => true | None => false end.
(** mod.rs 269-437 on the whole index: 305, 408 (length up) *)
Definition run_patch (s : idx) (e : elem) (m : wmode) : option (idx * option elem) :=
  match patch turns 0 (root s) e m with
  | Some (t, up, old) => Some (MkIdx t (if up then incr (len s) else len s), old)
  | None => None
  end.
(** mod.rs 496-607 on the whole index: 594 (length down) *)
Definition run_remove (s : idx) (k : K) : option (idx * option elem) :=
  match remove turns 0 0 (root s) k with
  | Some (t, old, _) => Some (MkIdx t (if is_some old then decr (len s) else len s), old)
  | None => None
  end.
(** imp.rs 117-213: one operation *)
Definition exec (s : idx) (o : op) : option (idx * res) :=
  match o with
  | OInsert e => option_map (fun x => (fst x, RBool (negb (is_some (snd x))))) (run_patch s e Fresh)
  | OUpsert e => option_map (fun x => (fst x, RUnit)) (run_patch s e Any)
  | OUpdate e => option_map (fun x => (fst x, RBool (is_some (snd x)))) (run_patch s e Refresh)
  | OUpdateRet e => option_map (fun x => (fst x, RVal (option_map snd (snd x)))) (run_patch s e Refresh)
  | OContains k => option_map (fun x => (s, RBool (is_some x))) (lookup turns (hash k) (root s) k)
  | OGet k => option_map (fun x => (s, RVal (option_map snd x))) (lookup turns (hash k) (root s) k)
  | OGetElem k => option_map (fun x => (s, RElem x)) (lookup turns (hash k) (root s) k)
  | ODelete k => option_map (fun x => (fst x, RBool (is_some (snd x)))) (run_remove s k)
  | ODeleteRet k => option_map (fun x => (fst x, RVal (option_map snd (snd x)))) (run_remove s k)
  | ODeleteEntry k => option_map (fun x => (fst x, RElem (snd x))) (run_remove s k)
  | OLen => Some (s, RLen (len s))
  end.
(** operations one after the other *)
Fixpoint exec_all (s : idx) (os : list op) : option (idx * list res) :=
  match os with
  | [] => Some (s, [])
  | o :: r =>
      match exec s o with
      | None => None
      | Some (s', x) => match exec_all s' r with None => None | Some (s'', xs) => Some (s'', x :: xs) end
      end
  end.

(** iter.rs 229-244: nodes under way, each with the next index; iter.rs 253-262 *)
Definition stack : Type := list (tree * nat).
(** iter.rs 229-244 *)
Definition iter_new (s : idx) : stack := [(root s, 0)].
(** mem/uarray.rs 62-71: the stack of the iterator has 17 places, pushing more panics *)
Definition push (x : tree * nat) (st : stack) : option stack :=
  if length st =? S branch_mx then None else Some (x :: st).
(** iter.rs 264-302: up to the next element. [None] is a panic; [n] bounds the turns of the loop. The stack's
    top is the head of the list. *)
Fixpoint next (n : nat) (st : stack) : option (option elem * stack) :=
  match n with
  | 0 => None
  | S n =>
      match st with
      | [] => Some (None, [])
      | (TNull, _) :: r => next n r
      | (TLeaf d, i) :: r => match nth_error d i with Some e => Some (Some e, (TLeaf d, S i) :: r) | None => next n r end
      | (TBranch b, i) :: r =>
          if i <? max_tree_height
          then
            match nth_error b i with
            | None => None
            | Some c => match push (c, 0) ((TBranch b, S i) :: r) with Some st' => next n st' | None => None end
            end
          else next n r
      end
  end.
(** a full scan: [next] until it answers nothing (at most [k] elements) *)
Fixpoint scan (k n : nat) (st : stack) : option (list elem) :=
  match k with
  | 0 => None
  | S k =>
      match next n st with
      | None => None
      | Some (None, _) => Some []
      | Some (Some e, st') => match scan k n st' with Some l => Some (e :: l) | None => None end
      end
  end.
End Tree.
Arguments TNull {K V}.
Arguments TLeaf {K V}.
Arguments TBranch {K V}.
