(** The small vectors of the server: [VInline] (/repo/server/src/engine/mem/vinline.rs) and [UArray]
    (/repo/server/src/engine/mem/uarray.rs), over memory made of slots that may or may not hold an element.
    An operation answers [None] where the code would have undefined behaviour: a read of a slot never written, an access
    outside of a block, a freed block or one freed with another size, the wrong member of the union. Reading an element
    out of a slot ([ptr::read]) leaves it in the slot, as it does in memory; nothing but the lengths says that it is
    no longer there. Not modelled: allocation failures, the product of a capacity going over [usize], elements without
    a size, panics in destructors. *)
From Coq Require Import List Arith Bool.
Import ListNotations.

Section Vec.
Variable T : Type.
(** the slots of a vector, written or not ([MaybeUninit]) *)
Definition slots := list (option T).

(** ** Memory (mem/unsafe_apis.rs:40-95 and [core::ptr]) *)
(** blocks by address, the next address, elements destroyed so far *)
Record world := W { blocks : nat -> option slots; next : nat; drops : list T }.
(** core::ptr::write at slot [i] of a block *)
Fixpoint wr (s : slots) (i : nat) (x : T) : option slots :=
  match s, i with
  | [], _ => None
  | _ :: r, 0 => Some (Some x :: r)
  | y :: r, S i => option_map (cons y) (wr r i x)
  end.
(** core::ptr::read of slot [i] *)
Definition rd (s : slots) (i : nat) : option T := match nth_error s i with Some (Some x) => Some x | _ => None end.
(** core::slice::from_raw_parts: [n] elements from slot [lo], all written *)
Fixpoint inits (s : slots) : option (list T) :=
  match s with
  | [] => Some []
  | Some x :: r => option_map (cons x) (inits r)
  | None :: _ => None
  end.
(** core::slice::from_raw_parts, as above *)
Definition sl (s : slots) (lo n : nat) : option (list T) := if lo + n <=? length s then inits (firstn n (skipn lo s)) else None.
(** core::ptr::copy inside a block, [n] slots from [src] to [dst], which lies before [src] *)
Definition cpy (s : slots) (src dst n : nat) : option slots :=
  if (src + n <=? length s) && (dst + n <=? length s) then Some (firstn dst s ++ firstn n (skipn src s) ++ skipn (dst + n) s) else None.
(** core::ptr::copy_nonoverlapping of the first [n] slots of [s] over the first of [t] *)
Definition blit (s t : slots) (n : nat) : option slots := if (n <=? length s) && (n <=? length t) then Some (firstn n s ++ skipn n t) else None.
(** mem/unsafe_apis.rs:48-56 *)
Definition alloc_array (w : world) (n : nat) : world * nat :=
  if n =? 0 then (w, 0) (* a dangling address: no block *)
  else (W (fun a => if a =? S (next w) then Some (repeat None n) else blocks w a) (S (next w)) (drops w), S (next w)).
(** mem/unsafe_apis.rs:66-71: freed with the size given *)
Definition dealloc_array (w : world) (a n : nat) : option world :=
  if n =? 0 then Some w
  else match blocks w a with
       | Some s => if length s =? n then Some (W (fun b => if b =? a then None else blocks w b) (next w) (drops w)) else None
       | None => None
       end.
(** mem/unsafe_apis.rs:74-83 *)
Definition drop_slice (w : world) (s : slots) (lo n : nat) : option world :=
  match sl s lo n with Some xs => Some (W (blocks w) (next w) (drops w ++ xs)) | None => None end.
(** copy_nonoverlapping from slots into the block at an address; of nothing, any address will do *)
Definition blit_to (w : world) (s : slots) (a n : nat) : option world :=
  if n =? 0 then Some w
  else match blocks w a with
       | Some t => match blit s t n with Some t' => Some (W (fun b => if b =? a then Some t' else blocks w b) (next w) (drops w)) | None => None end
       | None => None
       end.

(** ** VInline (mem/vinline.rs) *)
(** 38-41: the slots themselves, or the address of a block *)
Inductive udata := UStack (s : slots) | UHeap (a : nat).
(** 43-47 *)
Record vin := V { vd : udata; vl : nat; vc : nat }.
Variable N : nat.
(** 51-60 *)
Definition v_new : vin := V (UStack (repeat None N)) 0 N.
(** 134-136 *)
Definition on_stack (v : vin) : bool := vc v =? N.
(** 138-159: the slots behind [_as_ptr] *)
Definition v_at (w : world) (v : vin) : option slots :=
  if on_stack v then match vd v with UStack s => Some s | UHeap _ => None end
  else match vd v with UHeap a => blocks w a | UStack _ => None end.
(** the same place overwritten *)
Definition v_set (w : world) (v : vin) (s : slots) : world * vin :=
  match vd v with
  | UStack _ => (w, V (UStack s) (vl v) (vc v))
  | UHeap a => (W (fun b => if b =? a then Some s else blocks w b) (next w) (drops w), v)
  end.
(** 160-173 *)
Definition v_slice (w : world) (v : vin) : option (list T) := match v_at w v with Some s => sl s 0 (vl v) | None => None end.
(** 184-187 *)
Definition push_unchecked (w : world) (v : vin) (x : T) : option (world * vin) :=
  match v_at w v with
  | Some s => match wr s (vl v) x with
              | Some s' => let (w', v') := v_set w v s' in Some (w', V (vd v') (S (vl v')) (vc v'))
              | None => None
              end
  | None => None
  end.
(** 246-249, of the block of the vector, with its capacity *)
Definition dealloc_heap (w : world) (v : vin) : option world :=
  match vd v with UHeap a => dealloc_array w a (vc v) | UStack _ => None end.
(** 222-245 (with 175-183: twice the capacity) *)
Definition grow (w : world) (v : vin) : option (world * vin) :=
  if vl v =? vc v
  then
    let nc := vc v * 2 in
    let (w1, nb) := alloc_array w nc in
    if on_stack v
    then match vd v with
         | UStack s => match blit_to w1 s nb (vl v) with Some w2 => Some (w2, V (UHeap nb) (vl v) nc) | None => None end
         | UHeap _ => None
         end
    else match vd v with
         | UHeap a =>
             match (if vl v =? 0 then Some [] else blocks w1 a) with
             | Some s => match blit_to w1 s nb (vl v) with
                         | Some w2 => match dealloc_heap w2 v with Some w3 => Some (w3, V (UHeap nb) (vl v) nc) | None => None end
                         | None => None
                         end
             | None => None
             end
         | UStack _ => None
         end
  else Some (w, v).
(** 69-76 *)
Definition v_push (w : world) (v : vin) (x : T) : option (world * vin) :=
  match grow w v with Some (w1, v1) => push_unchecked w1 v1 x | None => None end.
(** 77-85 *)
Definition v_clear (w : world) (v : vin) : option (world * vin) :=
  match v_at w v with
  | Some s => match drop_slice w s 0 (vl v) with Some w' => Some (w', V (vd v) 0 (vc v)) | None => None end
  | None => None
  end.
(** 104-120 *)
Definition remove_unchecked (w : world) (v : vin) (i : nat) : option (world * vin * T) :=
  match v_at w v with
  | Some s =>
      match rd s i with
      | Some x =>
          match cpy s (i + 1) i (vl v - i - 1) with
          | Some s' => let (w', v') := v_set w v s' in Some (w', V (vd v') (vl v' - 1) (vc v'), x)
          | None => None
          end
      | None => None
      end
  | None => None
  end.
(** 212-220 *)
Definition mv_to_stack (w : world) (v : vin) : option (world * vin) :=
  match vd v with
  | UHeap a =>
      match (if vl v =? 0 then Some [] else blocks w a) with
      | Some h => match blit h (repeat None N) (vl v) with
                  | Some s => match dealloc_heap w v with Some w' => Some (w', V (UStack s) (vl v) N) | None => None end
                  | None => None
                  end
      | None => None
      end
  | UStack _ => None
  end.
(** 188-211 *)
Definition optimize (w : world) (v : vin) : option (world * vin) :=
  if on_stack v || (vl v =? vc v) then Some (w, v)
  else if vl v <=? N then mv_to_stack w v
  else
    let (w1, nb) := alloc_array w (vl v) in
    match vd v with
    | UHeap a =>
        match blocks w1 a with
        | Some h => match blit_to w1 h nb (vl v) with
                    | Some w2 => match dealloc_heap w2 v with Some w3 => Some (w3, V (UHeap nb) (vl v) (vl v)) | None => None end
                    | None => None
                    end
        | None => None
        end
    | UStack _ => None
    end.
(** 271-282 *)
Definition v_drop (w : world) (v : vin) : option world :=
  match v_at w v with
  | Some s => match drop_slice w s 0 (vl v) with
              | Some w' => if on_stack v then Some w' else dealloc_heap w' v
              | None => None
              end
  | None => None
  end.
(** 290-295, 311-318 *)
Fixpoint v_extend (w : world) (v : vin) (xs : list T) : option (world * vin) :=
  match xs with
  | [] => Some (w, v)
  | x :: r => match v_push w v x with Some (w1, v1) => v_extend w1 v1 r | None => None end
  end.
(** 304-309: copies of the elements, collected *)
Definition v_clone (copy : T -> T) (w : world) (v : vin) : option (world * vin) :=
  match v_slice w v with Some xs => v_extend w v_new (map copy xs) | None => None end.

(** what can be asked of a vector *)
Inductive vop := VPush (x : T) | VRemove (i : nat) | VRemoveCompact (i : nat) | VClear | VOptimize | VSlice | VExtend (xs : list T).
(** what the operations answer *)
Inductive vout := OUnit | OElem (x : T) | OSlice (xs : list T) | OPanic.
(** 69-103, 188, 252-263, 290; a [remove] outside of the vector panics before it does anything (86-95) *)
Definition v_exec (w : world) (v : vin) (o : vop) : option (world * vin * vout) :=
  match o with
  | VPush x => match v_push w v x with Some (w', v') => Some (w', v', OUnit) | None => None end
  | VRemove i => if negb (i <? vl v) then Some (w, v, OPanic) else match remove_unchecked w v i with Some (w', v', x) => Some (w', v', OElem x) | None => None end
  | VRemoveCompact i =>
      if negb (i <? vl v) then Some (w, v, OPanic)
      else match remove_unchecked w v i with
           | Some (w1, v1, x) => match optimize w1 v1 with Some (w', v') => Some (w', v', OElem x) | None => None end
           | None => None
           end
  | VClear => match v_clear w v with Some (w', v') => Some (w', v', OUnit) | None => None end
  | VOptimize => match optimize w v with Some (w', v') => Some (w', v', OUnit) | None => None end
  | VSlice => match v_slice w v with Some xs => Some (w, v, OSlice xs) | None => None end
  | VExtend xs => match v_extend w v xs with Some (w', v') => Some (w', v', OUnit) | None => None end
  end.
(** operations one after the other *)
Fixpoint v_run (w : world) (v : vin) (os : list vop) : option (world * vin * list vout) :=
  match os with
  | [] => Some (w, v, [])
  | o :: r =>
      match v_exec w v o with
      | Some (w1, v1, x) => match v_run w1 v1 r with Some (w2, v2, xs) => Some (w2, v2, x :: xs) | None => None end
      | None => None
      end
  end.

(** *** Taking a vector apart (320-399) *)
(** 320-324 *)
Record vit := VI { iv : vin; il : nat; ii : nat }.
(** 384-398 *)
Definition v_into (v : vin) : vit := VI (V (vd v) 0 (vc v)) (vl v) 0.
(** Whether [Option<T>] has the layout of [T] with [Some(x)] the same bytes as [x] (references, boxes, ...) *)
Variable niche : bool.
(** 334, 346: [ptr::read(p.cast())] at type [Option<T>] from a slot holding a [T]. Without such a layout this reads
    past the slot, and takes bytes of the element for the discriminant. *)
Definition read_cast (s : slots) (i : nat) : option (option T) := match rd s i with Some x => if niche then Some (Some x) else None | None => None end.
(** 327-336 *)
Definition it_next (w : world) (t : vit) : option (vit * option T) :=
  if ii t =? il t then Some (t, None)
  else match v_at w (iv t) with
       | Some s => match read_cast s (ii t) with Some r => Some (VI (iv t) (il t) (S (ii t)), r) | None => None end
       | None => None
       end.
(** 338-347 *)
Definition it_back (w : world) (t : vit) : option (vit * option T) :=
  if ii t =? il t then Some (t, None)
  else match v_at w (iv t) with
       | Some s => match read_cast s (il t - 1) with Some r => Some (VI (iv t) (il t - 1) (ii t), r) | None => None end
       | None => None
       end.
(** 350-360, then the vector inside *)
Definition it_drop (w : world) (t : vit) : option world :=
  match (if ii t <? il t then match v_at w (iv t) with Some s => drop_slice w s (ii t) (il t - ii t) | None => None end else Some w) with
  | Some w' => v_drop w' (iv t)
  | None => None
  end.
(** taking from the front ([true]) or the back *)
Fixpoint it_run (w : world) (t : vit) (ds : list bool) : option (vit * list (option T)) :=
  match ds with
  | [] => Some (t, [])
  | b :: r => match (if b then it_next w t else it_back w t) with
              | Some (t1, x) => match it_run w t1 r with Some (t2, xs) => Some (t2, x :: xs) | None => None end
              | None => None
              end
  end.

(** ** UArray (mem/uarray.rs) *)
(** 39-42 *)
Record uarr := U { ua : slots; ul : nat }.
(** 45-53 *)
Definition u_new : uarr := U (repeat None N) 0.
(** 121-132 *)
Definition u_slice (u : uarr) : option (list T) := sl (ua u) 0 (ul u).
(** 114-119 *)
Definition u_push_unchecked (u : uarr) (x : T) : option uarr := match wr (ua u) (ul u) x with Some s => Some (U s (S (ul u))) | None => None end.
(** 100-112 *)
Definition u_remove_unchecked (u : uarr) (i : nat) : option (uarr * T) :=
  match rd (ua u) i with
  | Some x => match cpy (ua u) (i + 1) i (ul u - i - 1) with Some s => Some (U s (ul u - 1), x) | None => None end
  | None => None
  end.
(** what can be asked of an array, 62-112, and its answers *)
Inductive uop := UPush (x : T) | URemove (i : nat) | UPop | UClear | USlice.
(** what can be asked of an array, 62-112, and its answers *)
Inductive uout := PUnit | PElem (x : T) | PNone | PSlice (xs : list T) | PPanic.
(** 62-98: the answer and the destroyed elements (a push on a full array panics; the element is dropped) *)
Definition u_exec (u : uarr) (o : uop) : option (uarr * uout * list T) :=
  match o with
  | UPush x => if ul u =? N then Some (u, PPanic, [x]) else match u_push_unchecked u x with Some u' => Some (u', PUnit, []) | None => None end
  | URemove i => if ul u <=? i then Some (u, PPanic, []) else match u_remove_unchecked u i with Some (u', x) => Some (u', PElem x, []) | None => None end
  | UPop => if ul u =? 0 then Some (u, PNone, []) else match u_remove_unchecked u (ul u - 1) with Some (u', x) => Some (u', PElem x, []) | None => None end
  | UClear => match u_slice u with Some xs => Some (U (ua u) 0, PUnit, xs) | None => None end
  | USlice => match u_slice u with Some xs => Some (u, PSlice xs, []) | None => None end
  end.
(** operations one after the other *)
Fixpoint u_run (u : uarr) (os : list uop) : option (uarr * list uout * list T) :=
  match os with
  | [] => Some (u, [], [])
  | o :: r =>
      match u_exec u o with
      | Some (u1, x, d1) => match u_run u1 r with Some (u2, xs, d2) => Some (u2, x :: xs, d1 ++ d2) | None => None end
      | None => None
      end
  end.
(** 176-185: the elements destroyed *)
Definition u_drop (u : uarr) : option (list T) := if ul u =? 0 then Some [] else u_slice u.
(** 149-160 *)
Definition u_from_slice (xs : list T) : option uarr := match blit (map Some xs) (repeat None N) (length xs) with Some s => Some (U s (length xs)) | None => None end.
(** 226-230, 288-301 *)
Record uit := UI { ju : uarr; jl : nat; ji : nat }.
(** [into_iter], 288-301 *)
Definition u_into (u : uarr) : uit := UI (U (ua u) 0) (ul u) 0.
(** 233-246 *)
Definition uit_next (t : uit) : option (uit * option T) :=
  if ji t =? jl t then Some (t, None) else match rd (ua (ju t)) (ji t) with Some x => Some (UI (ju t) (jl t) (S (ji t)), Some x) | None => None end.
(** 247-257 *)
Definition uit_back (t : uit) : option (uit * option T) :=
  if ji t =? jl t then Some (t, None) else match rd (ua (ju t)) (jl t - 1) with Some x => Some (UI (ju t) (jl t - 1) (ji t), Some x) | None => None end.
(** 260-271, then the array inside (176-185): the elements destroyed *)
Definition uit_drop (t : uit) : option (list T) :=
  match (if ji t <? jl t then sl (ua (ju t)) (ji t) (jl t - ji t) else Some []) with
  | Some a => option_map (app a) (u_drop (ju t))
  | None => None
  end.
(** a client of the iterator, 232-287 *)
Fixpoint uit_run (t : uit) (ds : list bool) : option (uit * list (option T)) :=
  match ds with
  | [] => Some (t, [])
  | b :: r => match (if b then uit_next t else uit_back t) with
              | Some (t1, x) => match uit_run t1 r with Some (t2, xs) => Some (t2, x :: xs) | None => None end
              | None => None
              end
  end.
End Vec.
