(** Who owns which block of memory: literals, cells, primary keys, rows. A program is a list of operations on variables;
    what Rust's compiler refuses (wrong types, moving or dropping something that is borrowed) is not a program. *)
From Coq Require Import List NArith Bool Arith.
From Verif Require Import Bytes.
Import ListNotations.

(** [Bad]: the compiler would not accept it. [UB]: a block is used after it was freed, freed twice, freed with a wrong
    size or address, or read past its end. *)
Inductive R (A : Type) := Ok (a : A) | Bad | UB.
Arguments Ok {A}. Arguments Bad {A}. Arguments UB {A}.
Notation "'let!' p := e 'in' f" := (match e with Ok p => f | Bad => Bad | UB => UB end) (at level 200, p pattern, right associativity).

(** ** Memory *)
(** Blocks of bytes; [None]: freed. Simplified: an address never comes back. *)
Definition mem : Type := list (option bytes).
(** [PZero]: address of mem/word.rs:32 [ZERO_BLOCK]; [PDang]: the address a [Vec] or [Box] without bytes has; [PAt a o]: [o] bytes into block [a] *)
Inductive ptr := PZero | PDang | PAt (a o : nat).
(** mem/word.rs [SpecialPaddedWord], [NativeQword]: a number or length, and an address *)
Definition word : Type := N * ptr.
(** [to_owned], [into_boxed_slice], [vec!]: nothing is allocated for no bytes *)
Definition alloc (m : mem) (bs : bytes) : mem * word :=
  match bs with
  | [] => (m, (0%N, PDang))
  | _ => (m ++ [Some bs], (N.of_nat (length bs), PAt (length m) 0))
  end.
(** [slice::from_raw_parts] and reading all of it *)
Definition read (m : mem) (w : word) : R bytes :=
  match fst w with
  | 0%N => Ok []
  | n => match snd w with
         | PAt a o => match nth_error m a with
                      | Some (Some bs) => if (n <=? N.of_nat (length bs - o))%N then Ok (firstn (N.to_nat n) (skipn o bs)) else UB
                      | _ => UB
                      end
         | _ => UB
         end
  end.
(** Replace an element *)
Fixpoint set {A} (l : list A) (i : nat) (a : A) : list A :=
  match l, i with
  | [], _ => []
  | _ :: r, O => a :: r
  | b :: r, S j => b :: set r j a
  end.
(** mem/unsafe_apis.rs:66-70 [dealloc_array]; drop of a [Vec] whose capacity is its length does the same (lit.rs:245-252) *)
Definition dealloc (m : mem) (w : word) : R mem :=
  match fst w with
  | 0%N => Ok m
  | n => match snd w with
         | PAt a O => match nth_error m a with
                      | Some (Some bs) => if (n =? N.of_nat (length bs))%N then Ok (set m a None) else UB
                      | _ => UB
                      end
         | _ => UB
         end
  end.

(** ** Values *)
(** data/tag.rs:49-57 [TagClass] *)
Inductive cls := Bool | UInt | SInt | Float | Bin | Str | List.
(** Classes whose word is a length and an address *)
Definition wide (c : cls) : bool := match c with Bin | Str => true | _ => false end.
(** data/lit.rs:45-50: class of the tag, [dtc] (true: [DTC_HSTR]), word *)
Record lit := mk_lit { l_cls : cls; l_heap : bool; l_word : word }.
(** data/cell.rs:50-54, 452-457: everything but a list is a flag (initialised), a class and a word *)
Inductive cell := CWord (init : bool) (c : cls) (w : word) | CList (l : list cell).
(** core/index/key.rs:47-50 *)
Record key := mk_key { k_cls : cls; k_word : word }.
(** core/index/row.rs:46-50: a handle has its own copy of the key's word, and the address of the shared part *)
Record rowh := mk_rowh { h_key : key; h_id : nat }.
(** The shared part: sync/smart.rs [RawRC] with row.rs:52-57 inside. The cells are in a list here; names, versions, locks are not. *)
Record robj := mk_robj { r_count : nat; r_cells : list cell }.

(** What a variable may hold: a [Box<[u8]>], [Box<str>], [Vec<u8>] or [String] (capacity = length), a borrowed slice, and the above *)
Inductive val :=
| VBox (w : word) | VSlice (w : word) | VLit (l : lit) | VCell (c : cell) | VCells (l : list cell) | VKey (k : key)
| VVirt (c : cell) | VRow (h : rowh).
(** Variables: value and the variables it is borrowed from ([None]: moved or dropped) *)
Record st := mk_st { mm : mem; env : list (option (val * list nat)); objs : list (option robj) }.

(** What is seen of a value *)
Inductive seen := SNum (c : cls) (q : N) | SBytes (c : cls) (b : bytes) | SNull | SList (l : list seen).

(** *** Reading *)
(** lit.rs:85-166: by class of the tag *)
Definition read_word (m : mem) (c : cls) (w : word) : R seen :=
  if wide c then let! b := read m w in Ok (SBytes c b) else Ok (SNum c (fst w)).
(** sel.rs:145-177 [encode_cell], cell.rs [read_bin], [read_list] *)
Fixpoint read_cell (m : mem) (c : cell) : R seen :=
  match c with
  | CWord false _ _ => Ok SNull
  | CWord true c w => read_word m c w
  | CList l =>
    let! r := (fix go (l : list cell) : R (list seen) :=
                 match l with [] => Ok [] | x :: r => let! a := read_cell m x in let! b := go r in Ok (a :: b) end) l in
    Ok (SList r)
  end.
(** a vector of cells *)
Fixpoint read_cells (m : mem) (l : list cell) : R (list seen) :=
  match l with [] => Ok [] | x :: r => let! a := read_cell m x in let! b := read_cells m r in Ok (a :: b) end.

(** *** Dropping *)
(** lit.rs:255-260 with 244-252 *)
Definition drop_lit (m : mem) (l : lit) : R mem := if l_heap l then dealloc m (l_word l) else Ok m.
(** cell.rs:472-487 *)
Fixpoint drop_cell (m : mem) (c : cell) : R mem :=
  match c with
  | CWord _ c w => if wide c then dealloc m w else Ok m
  | CList l =>
    (fix go (m : mem) (l : list cell) : R mem :=
       match l with [] => Ok m | x :: r => let! m' := drop_cell m x in go m' r end) m l
  end.
(** drop of a [Vec<Datacell>], of the cells of a row *)
Fixpoint drop_cells (m : mem) (l : list cell) : R mem :=
  match l with [] => Ok m | x :: r => let! m' := drop_cell m x in drop_cells m' r end.
(** key.rs:208-218 *)
Definition drop_key (m : mem) (k : key) : R mem := if wide (k_cls k) then dealloc m (k_word k) else Ok m.
(** row.rs:206-216, smart.rs:295-311: the last handle drops its copy of the key, then the shared part *)
Definition drop_row (m : mem) (o : list (option robj)) (h : rowh) : R (mem * list (option robj)) :=
  match nth_error o (h_id h) with
  | Some (Some r) =>
    if r_count r =? 1 then
      let! m1 := drop_key m (h_key h) in
      let! m2 := drop_cells m1 (r_cells r) in
      Ok (m2, set o (h_id h) None)
    else Ok (m, set o (h_id h) (Some (mk_robj (r_count r - 1) (r_cells r))))
  | _ => UB
  end.
(** drop of whatever a variable holds; cell.rs:518-522: a [VirtualDatacell] holds its cell in [ManuallyDrop] *)
Definition drop_val (m : mem) (o : list (option robj)) (v : val) : R (mem * list (option robj)) :=
  match v with
  | VBox w => let! m' := dealloc m w in Ok (m', o)
  | VSlice _ | VVirt _ => Ok (m, o)
  | VLit l => let! m' := drop_lit m l in Ok (m', o)
  | VCell c => let! m' := drop_cell m c in Ok (m', o)
  | VCells l => let! m' := drop_cells m l in Ok (m', o)
  | VKey k => let! m' := drop_key m k in Ok (m', o)
  | VRow h => drop_row m o h
  end.

(** ** Operations *)
Inductive op :=
| NewBox (bs : bytes)                (* a buffer, string or boxed slice with these bytes *)
| Slice (v i n : nat)                (* borrow n bytes of a box, from i *)
| LitNum (c : cls) (q : N)           (* lit.rs:54-68 *)
| LitRef (c : cls) (v : nat)         (* lit.rs:170-178, 191-196: from a slice *)
| LitBox (v : nat)                   (* lit.rs:180-190: from a box *)
| AsIr (v : nat)                     (* lit.rs:72-79 *)
| LitClone (v : nat)                 (* lit.rs:262-287 *)
| LitSlice (v : nat)                 (* lit.rs:133-166, 209-216: the slice of a literal, kept *)
| CellNum (c : cls) (q : N) | CellNull (* cell.rs:58-160, 366-375 *)
| CellBox (c : cls) (v : nat)        (* cell.rs:162-170, 204-212 *)
| CellLit (v : nat)                  (* cell.rs:296-326 *)
| CellInto (c : cls) (v : nat)       (* cell.rs:188-202, 227-241 *)
| NewCells | PushCell (v c : nat) | PopCell (v : nat) (* Vec<Datacell> *)
| CellList (v : nat)                 (* cell.rs:243-248 *)
| CellIntoList (v : nat)             (* cell.rs:261-271 *)
| KeyCell (v : nat)                  (* key.rs:127-149 *)
| KeyNum (c : cls) (q : N)           (* key.rs:150-160 *)
| KeyBox (c : cls) (v : nat)         (* key.rs:161-170 with mdl_journal.rs:653-666 *)
| KeyClone (v : nat)                 (* key.rs:52-73 *)
| VirtLit (v : nat)                  (* cell.rs:524-534 *)
| VirtKey (v : nat)                  (* cell.rs:535-543: the key of a variable or of a row *)
| RowNew (k c : nat)                 (* row.rs:98-124 *)
| RowClone (v : nat)                 (* row.rs:187-204 *)
| RowSet (h i c : nat)               (* upd.rs:279-365: another cell in place of the i-th *)
| RowPush (h i c : nat)              (* upd.rs:330-337: to the list in the i-th cell; [read_list] of what is no list (the type of the field is looked at, not the cell) is undefined *)
| RowRead (h i : nat)                (* sel.rs *)
| Show (v : nat)                     (* read all of it *)
| Drop (v : nat).

(** The variable [v] is borrowed by no variable *)
Definition unborrowed (s : st) (v : nat) : bool :=
  forallb (fun b => match b with Some (_, l) => negb (existsb (Nat.eqb v) l) | None => true end) (env s).
(** A variable that is there *)
Definition use (s : st) (v : nat) : R (val * list nat) :=
  match nth_error (env s) v with Some (Some b) => Ok b | _ => Bad end.
(** The same, moved out of *)
Definition move (s : st) (v : nat) : R (val * list nat * st) :=
  let! b := use s v in
  if unborrowed s v then Ok (b, mk_st (mm s) (set (env s) v None) (objs s)) else Bad.
(** The result goes to a new variable *)
Definition give (s : st) (m : mem) (v : val) (l : list nat) : R (st * option seen) :=
  Ok (mk_st m (env s ++ [Some (v, l)]) (objs s), None).
(** nothing is made; the statement was a function that answered [None], or has no result *)
Definition done (s : st) (m : mem) : R (st * option seen) := Ok (mk_st m (env s) (objs s), None).

(** key.rs:52-73 [Clone] *)
Definition clone_key (m : mem) (k : key) : R (mem * key) :=
  match k_cls k with
  | SInt | UInt => let! b := read m (k_word k) in let '(m', w) := alloc m b in Ok (m', mk_key (k_cls k) (fst (k_word k), snd w))
  | Bin | Str => Ok (m, k)
  | _ => Bad
  end.

(** One operation. What it makes is in the variable with the next number; nothing is left of a failed conversion but the drop. *)
Definition step (s : st) (o : op) : R (st * option seen) :=
  match o with
  | NewBox bs => let '(m, w) := alloc (mm s) bs in give s m (VBox w) []
  | Slice v i n =>
    let! (x, _) := use s v in
    match x with
    | VBox (len, p) =>
      if (N.of_nat (i + n) <=? len)%N then give s (mm s) (VSlice (N.of_nat n, match p with PAt a o => PAt a (o + i) | _ => p end)) [v] else Bad
    | _ => Bad
    end
  | LitNum c q => match c with Bool | UInt | SInt | Float => give s (mm s) (VLit (mk_lit c false (q, PZero))) [] | _ => Bad end
  | LitRef c v =>
    let! (x, l) := use s v in
    match x with VSlice w => if wide c then give s (mm s) (VLit (mk_lit c false w)) l else Bad | _ => Bad end
  | LitBox v =>
    let! (x, _, s') := move s v in
    match x with VBox w => give s' (mm s) (VLit (mk_lit Str true w)) [] | _ => Bad end
  | AsIr v =>
    let! (x, l) := use s v in
    match x with VLit a => give s (mm s) (VLit (mk_lit (l_cls a) false (l_word a))) (v :: l) | _ => Bad end
  | LitClone v =>
    let! (x, l) := use s v in
    match x with
    | VLit a =>
      if l_heap a then
        let! b := read (mm s) (l_word a) in let '(m, w) := alloc (mm s) b in
        give s m (VLit (mk_lit (l_cls a) true (fst (l_word a), snd w))) l
      else give s (mm s) (VLit a) l
    | _ => Bad
    end
  | LitSlice v =>
    let! (x, l) := use s v in
    match x with VLit a => if wide (l_cls a) then give s (mm s) (VSlice (l_word a)) l else Bad | _ => Bad end
  | CellNum c q => match c with Bool | UInt | SInt | Float => give s (mm s) (VCell (CWord true c (q, PZero))) [] | _ => Bad end
  | CellNull => give s (mm s) (VCell (CWord false Bool (0%N, PZero))) []
  | CellBox c v =>
    let! (x, _, s') := move s v in
    match x with VBox w => if wide c then give s' (mm s) (VCell (CWord true c w)) [] else Bad | _ => Bad end
  | CellLit v =>
    let! (x, _, s') := move s v in
    match x with
    | VLit a =>
      if wide (l_cls a) then
        let! b := read (mm s) (l_word a) in
        let '(m, w) := alloc (mm s) b in
        let! m' := drop_lit m a in
        give s' m' (VCell (CWord true (l_cls a) (N.of_nat (length b), snd w))) []
      else let! m' := drop_lit (mm s) a in give s' m' (VCell (CWord true (l_cls a) (l_word a))) []
    | _ => Bad
    end
  | CellInto c v =>
    let! (x, _, s') := move s v in
    match x with
    | VCell (CWord i c' w) =>
      if wide c then
        if match c, c' with Bin, Bin => true | Str, Str => true | _, _ => false end then give s' (mm s) (VBox w) []
        else let! m := drop_cell (mm s) (CWord i c' w) in done s' m
      else Bad
    | VCell y => if wide c then let! m := drop_cell (mm s) y in done s' m else Bad
    | _ => Bad
    end
  | NewCells => give s (mm s) (VCells []) []
  | PushCell v c =>
    let! (x, _, s1) := move s c in
    let! (y, l, _) := move s1 v in
    match x, y with
    | VCell a, VCells cs => Ok (mk_st (mm s) (set (env s1) v (Some (VCells (cs ++ [a]), l))) (objs s), None)
    | _, _ => Bad
    end
  | PopCell v =>
    let! (x, l, _) := move s v in
    match x with
    | VCells [] => done s (mm s)
    | VCells (a :: cs) => Ok (mk_st (mm s) (set (env s) v (Some (VCells cs, l)) ++ [Some (VCell a, [])]) (objs s), None)
    | _ => Bad
    end
  | CellList v =>
    let! (x, _, s') := move s v in
    match x with VCells l => give s' (mm s) (VCell (CList l)) [] | _ => Bad end
  | CellIntoList v =>
    let! (x, _, s') := move s v in
    match x with
    | VCell (CList l) => give s' (mm s) (VCells l) []
    | VCell y => let! m := drop_cell (mm s) y in done s' m
    | _ => Bad
    end
  | KeyCell v =>
    let! (x, _, s') := move s v in
    match x with
    | VCell (CWord true c w) => match c with UInt | SInt | Bin | Str => give s' (mm s) (VKey (mk_key c w)) [] | _ => Bad end
    | _ => Bad
    end
  | KeyNum c q => match c with UInt | SInt => give s (mm s) (VKey (mk_key c (q, PZero))) [] | _ => Bad end
  | KeyBox c v =>
    let! (x, _, s') := move s v in
    match x with VBox w => if wide c then give s' (mm s) (VKey (mk_key c w)) [] else Bad | _ => Bad end
  | KeyClone v =>
    let! (x, _) := use s v in
    match x with VKey k => let! (m, k') := clone_key (mm s) k in give s m (VKey k') [] | _ => Bad end
  | VirtLit v =>
    let! (x, l, s') := move s v in
    match x with VLit a => let! m := drop_lit (mm s) a in give s' m (VVirt (CWord true (l_cls a) (l_word a))) l | _ => Bad end
  | VirtKey v =>
    let! (x, l) := use s v in
    match x with
    | VKey k => give s (mm s) (VVirt (CWord true (k_cls k) (k_word k))) (v :: l)
    | VRow h => give s (mm s) (VVirt (CWord true (k_cls (h_key h)) (k_word (h_key h)))) (v :: l)
    | _ => Bad
    end
  | RowNew k c =>
    let! (x, _, s1) := move s k in
    let! (y, _, s2) := move s1 c in
    match x, y with
    | VKey a, VCells cs => Ok (mk_st (mm s) (env s2 ++ [Some (VRow (mk_rowh a (length (objs s))), [])]) (objs s ++ [Some (mk_robj 1 cs)]), None)
    | _, _ => Bad
    end
  | RowClone v =>
    let! (x, _) := use s v in
    match x with
    | VRow h =>
      match nth_error (objs s) (h_id h) with
      | Some (Some r) => Ok (mk_st (mm s) (env s ++ [Some (VRow h, [])]) (set (objs s) (h_id h) (Some (mk_robj (r_count r + 1) (r_cells r)))), None)
      | _ => UB
      end
    | _ => Bad
    end
  | RowSet v i c =>
    let! (x, _) := use s v in
    let! (y, _, s1) := move s c in
    match x, y with
    | VRow h, VCell a =>
      match nth_error (objs s) (h_id h) with
      | Some (Some r) =>
        match nth_error (r_cells r) i with
        | Some old => let! m := drop_cell (mm s) old in
                      Ok (mk_st m (env s1) (set (objs s) (h_id h) (Some (mk_robj (r_count r) (set (r_cells r) i a)))), None)
        | None => let! m := drop_cell (mm s) a in done s1 m
        end
      | _ => UB
      end
    | _, _ => Bad
    end
  | RowPush v i c =>
    let! (x, _) := use s v in
    let! (y, _, s1) := move s c in
    match x, y with
    | VRow h, VCell a =>
      match nth_error (objs s) (h_id h) with
      | Some (Some r) =>
        match nth_error (r_cells r) i with
        | Some (CList l) =>
          let r' := mk_robj (r_count r) (set (r_cells r) i (CList (l ++ [a]))) in
          Ok (mk_st (mm s) (env s1) (set (objs s) (h_id h) (Some r')), None)
        | Some _ => UB
        | None => let! m := drop_cell (mm s) a in done s1 m
        end
      | _ => UB
      end
    | _, _ => Bad
    end
  | RowRead v i =>
    let! (x, _) := use s v in
    match x with
    | VRow h =>
      match nth_error (objs s) (h_id h) with
      | Some (Some r) => match nth_error (r_cells r) i with Some c => let! o := read_cell (mm s) c in Ok (s, Some o) | None => Ok (s, None) end
      | _ => UB
      end
    | _ => Bad
    end
  | Show v =>
    let! (x, _) := use s v in
    match x with
    | VBox w => let! b := read (mm s) w in Ok (s, Some (SBytes Bin b))
    | VSlice w => let! b := read (mm s) w in Ok (s, Some (SBytes Bin b))
    | VLit a => let! o := read_word (mm s) (l_cls a) (l_word a) in Ok (s, Some o)
    | VCell c => let! o := read_cell (mm s) c in Ok (s, Some o)
    | VCells l => let! o := read_cells (mm s) l in Ok (s, Some (SList o))
    | VKey k => let! o := read_word (mm s) (k_cls k) (k_word k) in Ok (s, Some o)
    | VVirt c => let! o := read_cell (mm s) c in Ok (s, Some o)
    | VRow h => let! o := read_word (mm s) (k_cls (h_key h)) (k_word (h_key h)) in Ok (s, Some o)
    end
  | Drop v =>
    let! (x, _, s') := move s v in
    let! (m, ob) := drop_val (mm s) (objs s) x in
    Ok (mk_st m (env s') ob, None)
  end.
(** A program *)
Fixpoint run (s : st) (l : list op) : R (st * list (option seen)) :=
  match l with
  | [] => Ok (s, [])
  | o :: r => let! (s', a) := step s o in let! (s2, b) := run s' r in Ok (s2, a :: b)
  end.
(** Nothing there yet *)
Definition start : st := mk_st [] [] [].
