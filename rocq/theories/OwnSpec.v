(** The same programs where a value is what it says: no memory, no owners, nothing to free. *)
From Coq Require Import List NArith Bool Arith.
From Verif Require Import Bytes OwnModel.
Import ListNotations.

Inductive aval :=
| ABox (b : bytes) | ASlice (b : bytes) | ALit (x : seen) | ACell (x : seen) | ACells (l : list seen) | AKey (x : seen)
| AVirt (x : seen) | ARow (id : nat).
(** Variables ([None]: gone) and rows: key and cells *)
Record ast := mk_ast { vars : list (option aval); arows : list (seen * list seen) }.

Definition avar (t : ast) (v : nat) : option aval := match nth_error (vars t) v with Some (Some x) => Some x | _ => None end.
Definition without (t : ast) (v : nat) : ast := mk_ast (set (vars t) v None) (arows t).
Definition plus (t : ast) (x : aval) : ast := mk_ast (vars t ++ [Some x]) (arows t).
Definition number (c : cls) : bool := match c with Bool | UInt | SInt | Float => true | _ => false end.
Definition whole (c : cls) : bool := match c with UInt | SInt => true | _ => false end.
Definition same_kind (c : cls) (x : seen) : bool := match c, x with Bin, SBytes Bin _ => true | Str, SBytes Str _ => true | _, _ => false end.

Definition astep (t : ast) (o : op) : option (ast * option seen) :=
  match o with
  | NewBox bs => Some (plus t (ABox bs), None)
  | Slice v i n => match avar t v with Some (ABox b) => if i + n <=? length b then Some (plus t (ASlice (firstn n (skipn i b))), None) else None | _ => None end
  | LitNum c q => if number c then Some (plus t (ALit (SNum c q)), None) else None
  | LitRef c v => match avar t v with Some (ASlice b) => if wide c then Some (plus t (ALit (SBytes c b)), None) else None | _ => None end
  | LitBox v => match avar t v with Some (ABox b) => Some (plus (without t v) (ALit (SBytes Str b)), None) | _ => None end
  | AsIr v | LitClone v => match avar t v with Some (ALit x) => Some (plus t (ALit x), None) | _ => None end
  | LitSlice v => match avar t v with Some (ALit (SBytes _ b)) => Some (plus t (ASlice b), None) | _ => None end
  | CellNum c q => if number c then Some (plus t (ACell (SNum c q)), None) else None
  | CellNull => Some (plus t (ACell SNull), None)
  | CellBox c v => match avar t v with Some (ABox b) => if wide c then Some (plus (without t v) (ACell (SBytes c b)), None) else None | _ => None end
  | CellLit v => match avar t v with Some (ALit x) => Some (plus (without t v) (ACell x), None) | _ => None end
  | CellInto c v =>
    match avar t v with
    | Some (ACell x) =>
      if wide c then
        if same_kind c x then match x with SBytes _ b => Some (plus (without t v) (ABox b), None) | _ => None end
        else Some (without t v, None)
      else None
    | _ => None
    end
  | NewCells => Some (plus t (ACells []), None)
  | PushCell v c =>
    match avar t c, avar (without t c) v with
    | Some (ACell x), Some (ACells l) => Some (mk_ast (set (vars (without t c)) v (Some (ACells (l ++ [x])))) (arows t), None)
    | _, _ => None
    end
  | PopCell v =>
    match avar t v with
    | Some (ACells []) => Some (t, None)
    | Some (ACells (x :: l)) => Some (plus (mk_ast (set (vars t) v (Some (ACells l))) (arows t)) (ACell x), None)
    | _ => None
    end
  | CellList v => match avar t v with Some (ACells l) => Some (plus (without t v) (ACell (SList l)), None) | _ => None end
  | CellIntoList v =>
    match avar t v with
    | Some (ACell (SList l)) => Some (plus (without t v) (ACells l), None)
    | Some (ACell _) => Some (without t v, None)
    | _ => None
    end
  | KeyCell v => match avar t v with Some (ACell x) => Some (plus (without t v) (AKey x), None) | _ => None end
  | KeyNum c q => if whole c then Some (plus t (AKey (SNum c q)), None) else None
  | KeyBox c v => match avar t v with Some (ABox b) => if wide c then Some (plus (without t v) (AKey (SBytes c b)), None) else None | _ => None end
  | KeyClone v => match avar t v with Some (AKey x) => Some (plus t (AKey x), None) | _ => None end
  | VirtLit v => match avar t v with Some (ALit x) => Some (plus (without t v) (AVirt x), None) | _ => None end
  | VirtKey v =>
    match avar t v with
    | Some (AKey x) => Some (plus t (AVirt x), None)
    | Some (ARow i) => match nth_error (arows t) i with Some (x, _) => Some (plus t (AVirt x), None) | None => None end
    | _ => None
    end
  | RowNew k c =>
    match avar t k, avar (without t k) c with
    | Some (AKey x), Some (ACells l) =>
      let u := without (without t k) c in
      Some (mk_ast (vars u ++ [Some (ARow (length (arows t)))]) (arows t ++ [(x, l)]), None)
    | _, _ => None
    end
  | RowClone v => match avar t v with Some (ARow i) => Some (plus t (ARow i), None) | _ => None end
  | RowSet v i c =>
    match avar t v, avar t c with
    | Some (ARow r), Some (ACell x) =>
      match nth_error (arows t) r with
      | Some (k, l) => Some (mk_ast (vars (without t c)) (set (arows t) r (k, set l i x)), None)
      | None => None
      end
    | _, _ => None
    end
  | RowPush v i c =>
    match avar t v, avar t c with
    | Some (ARow r), Some (ACell x) =>
      match nth_error (arows t) r with
      | Some (k, l) =>
        match nth_error l i with
        | Some (SList y) => Some (mk_ast (vars (without t c)) (set (arows t) r (k, set l i (SList (y ++ [x])))), None)
        | Some _ => None
        | None => Some (without t c, None)
        end
      | None => None
      end
    | _, _ => None
    end
  | RowRead v i =>
    match avar t v with
    | Some (ARow r) => match nth_error (arows t) r with Some (_, l) => Some (t, nth_error l i) | None => None end
    | _ => None
    end
  | Show v =>
    match avar t v with
    | Some (ABox b) | Some (ASlice b) => Some (t, Some (SBytes Bin b))
    | Some (ALit x) | Some (ACell x) | Some (AKey x) | Some (AVirt x) => Some (t, Some x)
    | Some (ACells l) => Some (t, Some (SList l))
    | Some (ARow r) => match nth_error (arows t) r with Some (x, _) => Some (t, Some x) | None => None end
    | None => None
    end
  | Drop v => match avar t v with Some _ => Some (without t v, None) | None => None end
  end.
Fixpoint arun (t : ast) (l : list op) : option (ast * list (option seen)) :=
  match l with
  | [] => Some (t, [])
  | o :: r => match astep t o with Some (t', a) => match arun t' r with Some (t2, b) => Some (t2, a :: b) | None => None end | None => None end
  end.
Definition nothing : ast := mk_ast [] [].

(** ** Who owns what *)
(** The blocks a value is responsible for: those it frees when it is dropped for good *)
Definition addr (w : word) : list nat := match fst w with 0%N => [] | _ => match snd w with PAt a _ => [a] | _ => [] end end.
Fixpoint fpc (c : cell) : list nat :=
  match c with
  | CWord _ c w => if wide c then addr w else []
  | CList l => (fix go (l : list cell) : list nat := match l with [] => [] | x :: r => fpc x ++ go r end) l
  end.
Fixpoint fcs (l : list cell) : list nat := match l with [] => [] | x :: r => fpc x ++ fcs r end.
Definition fpk (k : key) : list nat := if wide (k_cls k) then addr (k_word k) else [].
Definition fpv (v : val) : list nat :=
  match v with
  | VBox w => addr w | VLit l => if l_heap l then addr (l_word l) else [] | VCell c => fpc c | VCells l => fcs l | VKey k => fpk k
  | _ => []
  end.
(** The key in the first handle of row [i] *)
Fixpoint row_key (e : list (option (val * list nat))) (i : nat) : list nat :=
  match e with
  | [] => []
  | Some (VRow h, _) :: r => if Nat.eq_dec (h_id h) i then fpk (h_key h) else row_key r i
  | _ :: r => row_key r i
  end.
Fixpoint rows_own (e : list (option (val * list nat))) (i : nat) (l : list (option robj)) : list nat :=
  match l with
  | [] => []
  | Some r :: q => row_key e i ++ fcs (r_cells r) ++ rows_own e (S i) q
  | None :: q => rows_own e (S i) q
  end.
(** All that the variables and the rows are responsible for *)
Definition owned (s : st) : list nat :=
  flat_map (fun b => match b with Some (x, _) => fpv x | None => [] end) (env s) ++ rows_own (env s) 0 (objs s).
(** Nothing is left of the variables; nothing is left in memory *)
Definition gone (s : st) : Prop := forall v b, nth_error (env s) v <> Some (Some b).
Definition freed (s : st) : Prop := (forall a bs, nth_error (mm s) a <> Some (Some bs)) /\ (forall i r, nth_error (objs s) i <> Some (Some r)).
(** The end of a scope: all variables that are there, the last one first *)
Fixpoint drops (s : st) (n : nat) : list op :=
  match n with
  | O => []
  | S k => match nth_error (env s) k with Some (Some _) => Drop k :: drops s k | _ => drops s k end
  end.
Definition scope_end (s : st) : list op := drops s (length (env s)).

(** what the operations do not check *)
Definition careful (s : st) (o : op) : bool :=
  match o with
  | LitSlice v | VirtLit v => match use s v with Ok (VLit a, _) => negb (l_heap a) || (fst (l_word a) =? 0)%N | _ => true end
  | KeyClone v => match use s v with Ok (VKey k, _) => (fst (k_word k) =? 0)%N | _ => true end
  | RowPush v i _ =>
    match use s v with
    | Ok (VRow h, _) => match nth_error (objs s) (h_id h) with
                        | Some (Some r) => match nth_error (r_cells r) i with Some (CWord _ _ _) => false | _ => true end
                        | _ => true
                        end
    | _ => true
    end
  | _ => true
  end.

(** Each operation of the program is careful where it is reached *)
Fixpoint all_careful (s : st) (l : list op) : bool :=
  match l with
  | [] => true
  | o :: r => careful s o && match step s o with Ok (s', _) => all_careful s' r | _ => true end
  end.
