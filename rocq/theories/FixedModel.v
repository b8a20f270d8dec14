(** The vector of fixed capacity behind the buffer of every file the server writes (/repo/server/src/engine/mem/fixed_vec.rs; used at
    storage/common/sdss/impls/sdss_r1/rw.rs:301), over the memory of [VecModel]: [None] is undefined behaviour. The release build is modelled: the
    [debug_assert]s of 106, 111 and 123 are not there. *)
From Coq Require Import List Arith Bool.
From Verif Require Import VecModel.
Import ListNotations.

Section Fixed.
Variable T : Type.
Variable CAP : nat.
(** 44-47: the address of the block, the length *)
Record fvec := F { fp : nat; fl : nat }.
(** 57-66; the capacity is not 0 (56) *)
Definition f_allocate (w : world T) : world T * fvec := let (w', a) := alloc_array T w CAP in (w', F a 0).
(** 70-72 *)
Definition f_remaining (v : fvec) : nat := CAP - fl v.
(** the block behind [p] overwritten (core::ptr::write and copy through 144-146) *)
Definition f_set (w : world T) (v : fvec) (s : slots T) : world T :=
  W T (fun b => if b =? fp v then Some s else blocks T w b) (next T w) (drops T w).
(** 110-114 *)
Definition f_push (w : world T) (v : fvec) (x : T) : option (world T * fvec) :=
  match blocks T w (fp v) with
  | Some s => match wr T s (fl v) x with Some s' => Some (f_set w v s', F (fp v) (fl v + 1)) | None => None end
  | None => None
  end.
(** core::ptr::copy_nonoverlapping (107): elements of another place over the slots from [i] *)
Definition put (s : slots T) (i : nat) (xs : list T) : option (slots T) :=
  if i + length xs <=? length s then Some (firstn i s ++ map Some xs ++ skipn (i + length xs) s) else None.
(** 102-109 *)
Definition f_extend (w : world T) (v : fvec) (xs : list T) : option (world T * fvec) :=
  match blocks T w (fp v) with
  | Some s => match put s (fl v) xs with Some s' => Some (f_set w v s', F (fp v) (fl v + length xs)) | None => None end
  | None => None
  end.
(** 147-152, 170-175 *)
Definition f_slice (w : world T) (v : fvec) : option (list T) := match blocks T w (fp v) with Some s => sl T s 0 (fl v) | None => None end.
(** 115-121 *)
Definition f_clear (w : world T) (v : fvec) : option (world T * fvec) :=
  match blocks T w (fp v) with
  | Some s => match drop_slice T w s 0 (fl v) with Some w' => Some (w', F (fp v) 0) | None => None end
  | None => None
  end.
(** 122-129; the difference of 127 is that of [usize]: a larger [cnt] wraps around *)
Definition f_clear_start (w : world T) (v : fvec) (cnt : nat) : option (world T * fvec) :=
  match blocks T w (fp v) with
  | Some s =>
      match drop_slice T w s 0 cnt with
      | Some w' => if cnt <=? fl v then match cpy T s cnt 0 (fl v - cnt) with Some s' => Some (f_set w' v s', F (fp v) (fl v - cnt)) | None => None end else None
      | None => None
      end
  | None => None
  end.
(** 132-141: [clear] first, so the length given to [dealloc_array] is the one after it *)
Definition f_drop (w : world T) (v : fvec) : option (world T) :=
  match f_clear w v with Some (w', v') => dealloc_array T w' (fp v') (fl v') | None => None end.

(** the operations: 91-101; 85-90; 110; 102; 115; 122; 170 *)
Inductive fop := FTry (x : T) | FTryPush (x : T) | FPush (x : T) | FExtend (xs : list T) | FClear | FClearStart (n : nat) | FSlice.
(** their answers: nothing; the element back (93); a panic (89); the elements *)
Inductive fout := AUnit | ABack (x : T) | APanic | ASlice (xs : list T).
(** one operation, as above *)
Definition f_exec (w : world T) (v : fvec) (o : fop) : option (world T * fvec * fout) :=
  let unit r := match r with Some (w', v') => Some (w', v', AUnit) | None => None end in
  match o with
  | FTry x => if f_remaining v =? 0 then Some (w, v, ABack x) else unit (f_push w v x)
  (* the element in the error is dropped by the panic *)
  | FTryPush x => if f_remaining v =? 0 then Some (W T (blocks T w) (next T w) (drops T w ++ [x]), v, APanic) else unit (f_push w v x)
  | FPush x => unit (f_push w v x)
  | FExtend xs => unit (f_extend w v xs)
  | FClear => unit (f_clear w v)
  | FClearStart n => unit (f_clear_start w v n)
  | FSlice => match f_slice w v with Some xs => Some (w, v, ASlice xs) | None => None end
  end.
(** a history of operations (85-181) *)
Fixpoint f_run (w : world T) (v : fvec) (os : list fop) : option (world T * fvec * list fout) :=
  match os with
  | [] => Some (w, v, [])
  | o :: r => match f_exec w v o with
              | Some (w', v', a) => match f_run w' v' r with Some (w2, v2, b) => Some (w2, v2, a :: b) | None => None end
              | None => None
              end
  end.
End Fixed.
