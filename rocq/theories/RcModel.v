(** Shared values with a counter: [RawRC] of /repo/server/src/engine/sync/smart.rs:244-312, under [Row]
    (core/index/row.rs:188-218), [EArc] and [SliceRC] (smart.rs:108-242).
    Any number of threads act in any order; each step is one atomic operation. All operations on the counter are
    read-modify-writes, so they are totally ordered and each reads the value of the one before; what the memory model adds
    to that is which actions are known to have happened before which. This is modelled by views: sets of actions. A
    [Release] operation leaves the view of its thread at the counter; later read-modify-writes, [Relaxed] ones too,
    continue its release sequence and keep what was left; an [Acquire] fence after reading takes what was left there.
    What the language guarantees about handles is taken as given: a handle is used (also by several threads at a time)
    only while it is lent, a thread it is lent to knows everything that happened to the handle before, and it is dropped
    by a thread to which all lendings have been returned. *)
From Coq Require Import List NArith Bool.
Import ListNotations.
Local Open Scope N_scope.

(** what a thread knows of the earlier actions (the memory model of the language, no code) *)
Definition view := list N.
(** a handle: its number, what is known to those it is lent to, the threads it is lent to *)
Record handle := H { hid : N; hv : view; lent : list N }.
(** where a thread is in [rc_drop] after it has read 1: before the fence (with what was left at the counter), before
    destroying the data, before freeing the box, done *)
Inductive phase := PFence (rv : view) | PDestroy | PFree | PDone.
(** the counter, the data and the threads, smart.rs:244-260 *)
Record st := S {
  cnt : N; (* smart.rs:251: the counter, a 64-bit number *)
  lv : view; (* what release operations left at the counter *)
  tv : N -> view; (* what happened before, for each thread *)
  hs : list handle; (* handles that exist *)
  pend : list (N * N); (* threads in [rc_clone] after [fetch_add], with the number it read *)
  dr : list (N * phase); (* threads in [rc_drop] that have read 1 *)
  events : list N; (* every action on the data or the counter so far *)
  dropped : list view; (* for each destruction of the data, what was known to have happened before *)
  boxfree : list view; (* the same for the box with the counter *)
  nexth : N;
  bad : bool; (* something was used after it was freed *)
  aborted : bool
}.
(** the bounds of smart.rs:284-289: [isize::MAX], and 2^64 *)
Definition isize_max : N := 9223372036854775807.
(** the bounds of smart.rs:284-289: [isize::MAX], and 2^64 *)
Definition two64 : N := 18446744073709551616.

(** smart.rs:257-264: one handle, the counter 1 *)
Definition init : st := S 1 [] (fun _ => []) [H 0 [] []] [] [] [] [] [] 1 false false.

(** what threads can do: clone (smart.rs:284-291), drop (295-312), use and hand on a handle *)
Inductive act :=
| ALend (t h : N)      (* thread [t] gets a reference to handle [h] *)
| AReturn (t h : N)    (* and gives it back *)
| AUse (t h : N)       (* [data]: smart.rs:265-270 *)
| AAdd (t h : N)       (* [rc_clone], the [fetch_add] *)
| ACheck (t : N)       (* [rc_clone], the rest *)
| ADrop (t h : N)      (* [rc_drop], the [fetch_sub] *)
| AFence (t : N) | ADestroy (t : N) | AFree (t : N). (* [rc_drop], the rest *)

(** helper of the model, without a counterpart in the code: lists of handles and threads *)
Definition get (l : list handle) (h : N) : option handle := find (fun x => hid x =? h) l.
(** helper of the model, without a counterpart in the code: lists of handles and threads *)
Definition put (l : list handle) (x : handle) : list handle := map (fun y => if hid y =? hid x then x else y) l.
(** helper of the model, without a counterpart in the code: lists of handles and threads *)
Definition del (l : list handle) (h : N) : list handle := filter (fun x => negb (hid x =? h)) l.
(** helper of the model, without a counterpart in the code: lists of handles and threads *)
Fixpoint remove1 (t : N) (l : list N) : list N := match l with [] => [] | x :: r => if x =? t then r else x :: remove1 t r end.
(** helper of the model, without a counterpart in the code: lists of handles and threads *)
Definition has (t : N) (l : list N) : bool := existsb (N.eqb t) l.
(** helper of the model, without a counterpart in the code: lists of handles and threads *)
Definition upd (f : N -> view) (t : N) (v : view) : N -> view := fun x => if x =? t then v else f x.
(** helper of the model, without a counterpart in the code: lists of handles and threads *)
Fixpoint take_pend (t : N) (l : list (N * N)) : option (N * list (N * N)) :=
  match l with
  | [] => None
  | (u, o) :: r => if u =? t then Some (o, r) else match take_pend t r with Some (x, r') => Some (x, (u, o) :: r') | None => None end
  end.
(** helper of the model, without a counterpart in the code: lists of handles and threads *)
Fixpoint take_dr (t : N) (l : list (N * phase)) : option (phase * list (N * phase)) :=
  match l with
  | [] => None
  | (u, p) :: r => if u =? t then Some (p, r) else match take_dr t r with Some (x, r') => Some (x, (u, p) :: r') | None => None end
  end.
(** an action on the data or the counter: a new event, known to its thread *)
Definition note (s : st) : N := N.of_nat (length (events s)).
(** helper of the model, without a counterpart in the code: lists of handles and threads *)
Definition nonempty {A} (l : list A) : bool := match l with [] => false | _ => true end.

(** one step; [None]: the thread cannot do this now *)
Definition exec (s : st) (a : act) : option st :=
  if aborted s then None else
  let e := note s in
  match a with
  | ALend t h =>
      match get (hs s) h with
      | Some x => Some (S (cnt s) (lv s) (upd (tv s) t (tv s t ++ hv x)) (put (hs s) (H h (hv x) (t :: lent x))) (pend s) (dr s) (events s) (dropped s) (boxfree s) (nexth s) (bad s) false)
      | None => None
      end
  | AReturn t h =>
      match get (hs s) h with
      | Some x => if has t (lent x)
                  then Some (S (cnt s) (lv s) (tv s) (put (hs s) (H h (hv x ++ tv s t) (remove1 t (lent x)))) (pend s) (dr s) (events s) (dropped s) (boxfree s) (nexth s) (bad s) false)
                  else None
      | None => None
      end
  | AUse t h =>
      match get (hs s) h with
      | Some x => if has t (lent x)
                  then Some (S (cnt s) (lv s) (upd (tv s) t (e :: tv s t)) (hs s) (pend s) (dr s) (e :: events s) (dropped s) (boxfree s) (nexth s) (bad s || nonempty (dropped s) || nonempty (boxfree s)) false)
                  else None
      | None => None
      end
  (* 280: [fetch_add(1, Relaxed)], wrapping; nothing is left at the counter, nothing of it is taken *)
  | AAdd t h =>
      match get (hs s) h with
      | Some x => if has t (lent x)
                  then Some (S ((cnt s + 1) mod two64) (lv s) (upd (tv s) t (e :: tv s t)) (hs s) ((t, cnt s) :: pend s) (dr s) (e :: events s) (dropped s) (boxfree s) (nexth s) (bad s || nonempty (boxfree s)) false)
                  else None
      | None => None
      end
  (* 281-286: abort, or the new handle *)
  | ACheck t =>
      match take_pend t (pend s) with
      | Some (old, r) =>
          if isize_max <? old
          then Some (S (cnt s) (lv s) (tv s) (hs s) r (dr s) (events s) (dropped s) (boxfree s) (nexth s) (bad s) true)
          else Some (S (cnt s) (lv s) (tv s) (H (nexth s) (tv s t) [] :: hs s) r (dr s) (events s) (dropped s) (boxfree s) (nexth s + 1) (bad s) false)
      | None => None
      end
  (* 291-295: [fetch_sub(1, Release)], wrapping *)
  | ADrop t h =>
      match get (hs s) h with
      | Some x =>
          if nonempty (lent x) then None
          else
            let v := e :: tv s t ++ hv x in
            Some (S ((cnt s + two64 - 1) mod two64) (lv s ++ v) (upd (tv s) t v) (del (hs s) h) (pend s)
                    (if cnt s =? 1 then (t, PFence (lv s)) :: dr s else dr s)
                    (e :: events s) (dropped s) (boxfree s) (nexth s) (bad s || nonempty (boxfree s)) false)
      | None => None
      end
  (* 297: [fence(Acquire)] *)
  | AFence t =>
      match take_dr t (dr s) with
      | Some (PFence rv, r) => Some (S (cnt s) (lv s) (upd (tv s) t (tv s t ++ rv)) (hs s) (pend s) ((t, PDestroy) :: r) (events s) (dropped s) (boxfree s) (nexth s) (bad s) false)
      | _ => None
      end
  (* 304: [dropfn()] (row.rs:211-215: the key; smart.rs:133-145: elements and block) *)
  | ADestroy t =>
      match take_dr t (dr s) with
      | Some (PDestroy, r) => Some (S (cnt s) (lv s) (tv s) (hs s) (pend s) ((t, PFree) :: r) (events s) (tv s t :: dropped s) (boxfree s) (nexth s) (bad s || nonempty (dropped s)) false)
      | _ => None
      end
  (* 306: the box, with the data in it *)
  | AFree t =>
      match take_dr t (dr s) with
      | Some (PFree, r) => Some (S (cnt s) (lv s) (tv s) (hs s) (pend s) ((t, PDone) :: r) (events s) (dropped s) (tv s t :: boxfree s) (nexth s) (bad s || nonempty (boxfree s)) false)
      | _ => None
      end
  end.
(** steps one after the other, as chosen by the scheduler *)
Fixpoint run (s : st) (l : list act) : option st :=
  match l with
  | [] => Some s
  | a :: r => match exec s a with Some s' => run s' r | None => None end
  end.
