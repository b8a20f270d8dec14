(** The same statements where a name is its text: no memory, no pointers, nothing to free. Rows are lists of named cells. *)
From Coq Require Import List NArith Bool Arith.
From Verif Require Import Bytes.
Import ListNotations.

Definition has (x : bytes) (l : list bytes) : bool := if in_dec bytes_eq_dec x l then true else false.

Section Cells.
  Context {V : Type}.
  Fixpoint cell (x : bytes) (c : list (bytes * V)) : option V :=
    match c with [] => None | (y, v) :: r => if bytes_eq_dec y x then Some v else cell x r end.
  Definition without (x : bytes) (c : list (bytes * V)) : list (bytes * V) :=
    filter (fun e => if bytes_eq_dec (fst e) x then false else true) c.
  Definition with_new (x : bytes) (v : V) (c : list (bytes * V)) : list (bytes * V) :=
    match cell x c with Some _ => c | None => c ++ [(x, v)] end.
  Definition with_value (x : bytes) (v : V) (c : list (bytes * V)) : list (bytes * V) :=
    map (fun e => if bytes_eq_dec (fst e) x then (fst e, v) else e) c.
End Cells.

Section Names.
  Context {V : Type} (null : V).

  Inductive change := Added (x : bytes) | Removed (x : bytes).
  Record nrow := mk_nrow { n_cells : list (bytes * V); n_seen : N }.
  Record nmdl := mk_nmdl { key_name : bytes; names : list bytes; changes : list change; nrows : list nrow }.

  Definition follow (c : list (bytes * V)) (d : change) : list (bytes * V) :=
    match d with Added x => with_new x null c | Removed x => without x c end.
  (** A row of version [v] has yet to follow the changes numbered above [v]; a row as new as the model has none *)
  Definition up_to_date (ds : list change) (r : nrow) : nrow :=
    let n := N.of_nat (length ds) in
    if (n <=? n_seen r)%N then r
    else match skipn (N.to_nat (n_seen r + 1)) ds with
         | [] => r
         | todo => mk_nrow (fold_left follow todo (n_cells r)) (n - 1)%N
         end.

  Definition ok_add (s : nmdl) (l : list bytes) : Prop := NoDup l /\ forall x, In x l -> ~ In x (names s).
  Definition ok_rem (s : nmdl) (l : list bytes) : Prop := NoDup l /\ forall x, In x l -> In x (names s) /\ x <> key_name s.
  Definition minus (l r : list bytes) : list bytes := filter (fun x => negb (has x r)) l.

  (** Values by position or by name *)
  Inductive values := ByPlace (vs : list V) | ByName (vs : list (bytes * V)).
  (** The cells of a new row, without the primary key; [None]: refused. A name given twice counts once. *)
  Definition new_cells (s : nmdl) (d : values) : option (list (bytes * V)) :=
    match d with
    | ByPlace vs =>
      if length vs =? length (names s) then Some (without (key_name s) (combine (names s) vs)) else None
    | ByName vs =>
      if (length vs =? length (names s)) && forallb (fun e => has (fst e) (names s)) vs && existsb (fun e => if bytes_eq_dec (fst e) (key_name s) then true else false) vs
      then Some (without (key_name s) (fold_left (fun c e => with_new (fst e) (snd e) c) vs [])) else None
    end.

  Inductive seen := SCell (v : V) | SKey | SNone.
  Definition look (s : nmdl) (c : list (bytes * V)) (x : bytes) : seen :=
    match cell x c with Some v => SCell v | None => if bytes_eq_dec x (key_name s) then SKey else SNone end.

  (** UPDATE: every name must be a field and in the row *)
  Fixpoint assigned (s : nmdl) (c : list (bytes * V)) (l : list (bytes * V)) : option (list (bytes * V)) :=
    match l with
    | [] => Some c
    | (x, v) :: r => if has x (names s) then match cell x c with Some _ => assigned s (with_value x v c) r | None => None end else None
    end.

  (** After a restart: fields and changes are the same, the rows are those of the file, under the names of today *)
  Definition loaded (s : nmdl) (b : N * list V) : nrow :=
    up_to_date (changes s)
      (mk_nrow (combine (filter (fun x => if bytes_eq_dec x (key_name s) then false else true) (names s)) (snd b)) (fst b)).

  Inductive nop :=
  | NAdd (l : list bytes) | NRem (l : list bytes) | NInsert (d : values)
  | NRead (i : nat) (which : option (list bytes)) | NUpdate (i : nat) (l : list (bytes * V))
  | NRestart (file : list (N * list V)).
  Inductive nans := NDone | NRefused | NGot (l : list seen).

  Definition put {A} (l : list A) (i : nat) (a : A) : list A := firstn i l ++ match skipn i l with [] => [] | _ :: t => a :: t end.

  Inductive nstep : nmdl -> nop -> nmdl -> nans -> Prop :=
  | s_add s l : ok_add s l ->
      nstep s (NAdd l) (mk_nmdl (key_name s) (names s ++ l) (changes s ++ map Added l) (nrows s)) NDone
  | s_add_no s l : ~ ok_add s l -> nstep s (NAdd l) s NRefused
  | s_rem s l : ok_rem s l ->
      nstep s (NRem l) (mk_nmdl (key_name s) (minus (names s) l) (changes s ++ map Removed l) (nrows s)) NDone
  | s_rem_no s l : ~ ok_rem s l -> nstep s (NRem l) s NRefused
  | s_ins s d c : new_cells s d = Some c ->
      nstep s (NInsert d) (mk_nmdl (key_name s) (names s) (changes s) (nrows s ++ [mk_nrow c (N.of_nat (length (changes s)))])) NDone
  | s_ins_no s d : new_cells s d = None -> nstep s (NInsert d) s NRefused
  | s_read s i w r : nth_error (nrows s) i = Some r ->
      nstep s (NRead i w)
        (mk_nmdl (key_name s) (names s) (changes s) (put (nrows s) i (up_to_date (changes s) r)))
        (NGot (map (look s (n_cells (up_to_date (changes s) r))) (match w with Some l => l | None => names s end)))
  | s_read_no s i w : nth_error (nrows s) i = None -> nstep s (NRead i w) s (NGot [])
  | s_upd s i l r c : nth_error (nrows s) i = Some r -> assigned s (n_cells r) l = Some c ->
      nstep s (NUpdate i l) (mk_nmdl (key_name s) (names s) (changes s) (put (nrows s) i (mk_nrow c (n_seen r)))) NDone
  | s_upd_no s i l : (forall r, nth_error (nrows s) i = Some r -> assigned s (n_cells r) l = None) ->
      nstep s (NUpdate i l) s NRefused
  | s_restart s file :
      nstep s (NRestart file) (mk_nmdl (key_name s) (names s) (changes s) (map (loaded s) file)) NDone.

  Inductive nrun : nmdl -> list nop -> nmdl -> list nans -> Prop :=
  | r_nil s : nrun s [] s []
  | r_cons s o s1 a l s2 la : nstep s o s1 a -> nrun s1 l s2 la -> nrun s (o :: l) s2 (a :: la).

  (** CREATE MODEL: the key is the declared one, or the first field *)
  Inductive created : list (bytes * bool) -> nmdl -> Prop :=
  | c_declared l k : NoDup (map fst l) -> filter snd l = [(k, true)] -> created l (mk_nmdl k (map fst l) [] [])
  | c_first x l : NoDup (map fst ((x, false) :: l)) -> filter snd l = [] -> created ((x, false) :: l) (mk_nmdl x (map fst ((x, false) :: l)) [] []).
End Names.
