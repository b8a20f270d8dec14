(** Field names: the model owns the text of every field name (a table of boxes); the list of fields, the pending schema
    changes and every row hold raw pointers into these boxes. Memory of removed names is given back only when the server
    is started again. *)
From Coq Require Import List NArith Bool Arith.
From Verif Require Import Bytes.
Import ListNotations.

(** ** Memory *)
(** A block is its contents, or [None] once it was freed. Simplified: an address is never given out twice, so every use of a
    freed block is seen as such and not hidden by a new block in its place. *)
Definition mem : Type := list (option bytes).
(** mem/rawslice.rs:36-46 [RawStr]: address and length; here the address of the block, the length is the block's *)
Definition ptr : Type := nat.
(** mem/rawslice.rs:52-58, 109-114: reading through the pointer. [None]: use after free (undefined behaviour). *)
Definition rd (m : mem) (p : ptr) : option bytes :=
  match nth_error m p with Some (Some x) => Some x | _ => None end.
(** A [Box<str>] for a new name (model/mod.rs:435, alt.rs:286) *)
Definition fresh (m : mem) (x : bytes) : mem * ptr := (m ++ [Some x], length m).
(** Drop of a [Box<str>] *)
Fixpoint free (m : mem) (p : ptr) : mem :=
  match m, p with
  | [], _ => []
  | _ :: r, O => None :: r
  | b :: r, S q => b :: free r q
  end.
(** Comparison of [str] (mem/rawslice.rs:126-130, core::str) *)
Definition same (a b : bytes) : bool := if bytes_eq_dec a b then true else false.

Notation "'let?' p := e 'in' f" := (match e with Some p => f | None => None end) (at level 200, p pattern, right associativity).

(** ** Maps whose keys are pointers, compared by text *)
Section Map.
  Context {A : Type}.
  (** Look-up in a hash map ([IndexST], [HashMap]) whose keys are [RawStr] or [Box<str>] (idx/stdhm.rs:120-134, rawslice.rs:65-69, 90-94).
      Simplified: the real table reads the keys of one bucket; here every key is read, so a dangling one is always noticed. *)
  Fixpoint kfind (m : mem) (l : list (ptr * A)) (x : bytes) : option (option (ptr * A)) :=
    match l with
    | [] => Some None
    | (p, a) :: r => let? s := rd m p in let? t := kfind m r x in Some (if same s x then Some (p, a) else t)
    end.
  (** idx/stdhm.rs:106-114 [st_insert]: nothing happens to a key that is there *)
  Definition kinsert (m : mem) (l : list (ptr * A)) (p : ptr) (a : A) : option (bool * list (ptr * A)) :=
    let? x := rd m p in
    let? f := kfind m l x in
    Some (match f with Some _ => (false, l) | None => (true, l ++ [(p, a)]) end).
  (** idx/stdhm.rs:173-179 [st_delete], and [remove] *)
  Fixpoint kdelete (m : mem) (l : list (ptr * A)) (x : bytes) : option (list (ptr * A)) :=
    match l with
    | [] => Some []
    | (p, a) :: r => let? s := rd m p in let? t := kdelete m r x in Some (if same s x then t else (p, a) :: t)
    end.
  (** idx/stdhm.rs:145-159 [st_update], [get_mut] followed by an assignment *)
  Fixpoint kset (m : mem) (l : list (ptr * A)) (x : bytes) (a : A) : option (list (ptr * A)) :=
    match l with
    | [] => Some []
    | (p, b) :: r => let? s := rd m p in let? t := kset m r x a in Some ((p, if same s x then a else b) :: t)
    end.
End Map.

(** ** The table of names *)
(** core/model/mod.rs:413-416: [HashMap<Box<str>, bool>]; the flag: to be freed. The boxes do not move when the table grows. *)
Definition table : Type := list (ptr * bool).
(** model/mod.rs:424-441 *)
Definition allocate_or_recycle (m : mem) (t : table) (x : bytes) : option (mem * table * ptr) :=
  let? f := kfind m t x in
  match f with
  | Some (p, _) => let? t' := kset m t x false in Some (m, t', p)
  | None => let '(m', p) := fresh m x in Some (m', t ++ [(p, false)], p)
  end.
(** model/mod.rs:451-463. The new box is dropped when the name is there; that box is not represented. *)
Definition push_allocated (m : mem) (t : table) (x : bytes) : option (mem * table * ptr) :=
  let? f := kfind m t x in
  match f with
  | Some (p, _) => let? t' := kset m t x false in Some (m, t', p)
  | None => let '(m', p) := fresh m x in Some (m', t ++ [(p, false)], p)
  end.
(** model/mod.rs:442-447; a name that is not in the table is a panic: [None] as well *)
Definition mark_pending_remove (m : mem) (t : table) (x : bytes) : option (table * ptr) :=
  let? f := kfind m t x in
  match f with
  | Some (p, _) => let? t' := kset m t x true in Some (t', p)
  | None => None
  end.
(** model/mod.rs:448-450: [retain]; the boxes of the entries that go are dropped *)
Definition vacuum_marked (m : mem) (t : table) : mem * table :=
  (fold_left free (map fst (filter snd t)) m, filter (fun e => negb (snd e)) t).

(** ** Model, rows *)
Section Machine.
  Context {V : Type} (null : V).

  (** core/index/row.rs:52-57: the cells by name, and the version of the fields they follow. The rest of a row is not here. *)
  Record row := mk_row { r_cells : list (ptr * V); r_ver : N }.
  (** core/model/delta.rs:184-188 *)
  Inductive sdelta := DAdd (p : ptr) | DRem (p : ptr).
  (** core/model/mod.rs:81-91: names, table, pending changes (delta.rs:41-50: a [BTreeMap] whose keys are 0, 1, 2, ..., its
      size is [schema_current_version]). [rows]: every row object there is, in the index or in the queue of changes. *)
  Record mdl := mk_mdl {
    mm : mem; tab : table; pk : ptr; fields : list (ptr * unit); deltas : list sdelta; rows : list row }.

  (** delta.rs:118-120 *)
  Definition version (ds : list sdelta) : N := N.of_nat (length ds).
  (** delta.rs:112-117: the changes after number [v] *)
  Definition since (ds : list sdelta) (v : N) : list sdelta := skipn (N.to_nat (v + 1)) ds.

  (** row.rs:160-179: the loop *)
  Fixpoint apply_deltas (m : mem) (ds : list sdelta) (c : list (ptr * V)) : option (list (ptr * V)) :=
    match ds with
    | [] => Some c
    | DAdd p :: r => let? (_, c') := kinsert m c p null in apply_deltas m r c'
    | DRem p :: r => let? x := rd m p in let? c' := kdelete m c x in apply_deltas m r c'
    end.
  (** row.rs:142-183: nothing when the row is up to date; otherwise the row's version becomes the number of the last change
      it saw, the old one when there was none *)
  Definition resolve (m : mem) (ds : list sdelta) (r : row) : option row :=
    if (version ds <=? r_ver r)%N then Some r
    else
      let todo := since ds (r_ver r) in
      let? c := apply_deltas m todo (r_cells r) in
      Some (mk_row c (match todo with [] => r_ver r | _ => version ds - 1 end)%N).

  (** model/mod.rs:488-497 [add_field]; the type of the field is not here *)
  Definition add_field (s : mdl) (x : bytes) : option (bool * mdl) :=
    let? (m, t, p) := push_allocated (mm s) (tab s) x in
    let? (b, f) := kinsert m (fields s) p tt in
    Some (b, mk_mdl m t (pk s) f (deltas s ++ [DAdd p]) (rows s)).
  (** model/mod.rs:479-487 [remove_field] *)
  Definition remove_field (s : mdl) (x : bytes) : option (bool * mdl) :=
    let? g := kfind (mm s) (fields s) x in
    let? f := kdelete (mm s) (fields s) x in
    let? (t, p) := mark_pending_remove (mm s) (tab s) x in
    Some (match g with Some _ => true | None => false end, mk_mdl (mm s) t (pk s) f (deltas s ++ [DRem p]) (rows s)).

  (** alt.rs:283-289, 303-306: a loop that does not look at the results *)
  Fixpoint each (f : mdl -> bytes -> option (bool * mdl)) (s : mdl) (l : list bytes) : option mdl :=
    match l with
    | [] => Some s
    | x :: r => let? (_, s') := f s x in each f s' r
    end.
  (** storage/common_encoding/r1/impls/gns/model.rs:363-372, 453-462: the loop stops with an error at the first [false];
      the start is given up ([Some None]) *)
  Fixpoint each_checked (f : mdl -> bytes -> option (bool * mdl)) (s : mdl) (l : list bytes) : option (option mdl) :=
    match l with
    | [] => Some (Some s)
    | x :: r => let? (b, s') := f s x in if b then each_checked f s' r else Some None
    end.

  (** *** Creating a model *)
  (** model/mod.rs:238-262: the loop of [process_create]: name and whether it was declared primary. [Some None]: refused. *)
  Fixpoint create_loop (m : mem) (t : table) (f : list (ptr * unit)) (last : option ptr) (l : list (bytes * bool))
    : option (option (mem * table * list (ptr * unit) * option ptr)) :=
    match l with
    | [] => Some (Some (m, t, f, last))
    | (x, primary) :: r =>
      let? (m', t', p) := allocate_or_recycle m t x in
      let last' := if primary then Some p else last in
      let? (ok, f') := kinsert m' f p tt in
      if ok then create_loop m' t' f' last' r else Some None
    end.
  (** model/mod.rs:226-283 [process_create]. Types are not here: the caller picks declarations that pass those checks. *)
  Definition process_create (l : list (bytes * bool)) : option (option mdl) :=
    let? o := create_loop [] [] [] None l in
    match o with
    | None => Some None
    | Some (m, t, f, last) =>
      if length (filter snd l) <=? 1 then
        match last, f with
        | Some p, _ => Some (Some (mk_mdl m t p f [] []))
        | None, (p, _) :: _ => Some (Some (mk_mdl m t p f [] []))
        | None, [] => Some None
        end
      else Some None
    end.
  (** model/mod.rs:208-224: the loop of [new_restore] *)
  Fixpoint restore_loop (m : mem) (t : table) (f : list (ptr * unit)) (l : list bytes) : option (mem * table * list (ptr * unit)) :=
    match l with
    | [] => Some (m, t, f)
    | x :: r =>
      let? (m', t', p) := push_allocated m t x in
      let? (_, f') := kinsert m' f p tt in
      restore_loop m' t' f' r
    end.
  (** model/mod.rs:197-225 [new_restore] *)
  Definition new_restore (k : bytes) (l : list bytes) : option mdl :=
    let? (m, t, p) := push_allocated [] [] k in
    let? (m', t', f) := restore_loop m t [] l in
    Some (mk_mdl m' t' p f [] []).

  (** *** Statements *)
  (** ALTER MODEL ADD: alt.rs:117-133 (checks), 273-290. [None] inside: refused. *)
  Fixpoint add_checks (s : mdl) (seen : list bytes) (l : list bytes) : option bool :=
    match l with
    | [] => Some true
    | x :: r =>
      let? f := kfind (mm s) (fields s) x in
      let? k := rd (mm s) (pk s) in
      let? b := add_checks s (x :: seen) r in
      Some (match f with Some _ => false | None => true end && negb (same k x) && negb (existsb (same x) seen) && b)
    end.
  (** alt.rs:117-133, 273-290 *)
  Definition alter_add (s : mdl) (l : list bytes) : option (option mdl) :=
    let? ok := add_checks s [] l in
    if ok then let? s' := each add_field s l in Some (Some s') else Some None.
  (** ALTER MODEL REMOVE: alt.rs:99-116 (checks) *)
  Fixpoint rem_checks (s : mdl) (seen : list bytes) (l : list bytes) : option bool :=
    match l with
    | [] => Some true
    | x :: r =>
      let? f := kfind (mm s) (fields s) x in
      let? k := rd (mm s) (pk s) in
      let? b := rem_checks s (x :: seen) r in
      Some (match f with Some _ => true | None => false end && negb (same k x) && negb (existsb (same x) seen) && b)
    end.
  (** alt.rs:99-116, 291-307 *)
  Definition alter_rem (s : mdl) (l : list bytes) : option (option mdl) :=
    let? ok := rem_checks s [] l in
    if ok then let? s' := each remove_field s l in Some (Some s') else Some None.

  (** INSERT with values by position: core/dml/ins.rs:77-96 *)
  Fixpoint prepare_tuple (m : mem) (f : list (ptr * unit)) (vs : list V) (acc : list (ptr * V)) : option (list (ptr * V)) :=
    match f, vs with
    | (p, _) :: f', v :: vs' => let? (_, acc') := kinsert m acc p v in prepare_tuple m f' vs' acc'
    | _, _ => Some acc
    end.
  (** INSERT with values by name: ins.rs:98-125; [Some None]: a name that is no field *)
  Fixpoint prepare_map (m : mem) (f : list (ptr * unit)) (vs : list (bytes * V)) (acc : list (ptr * V)) : option (option (list (ptr * V))) :=
    match vs with
    | [] => Some (Some acc)
    | (x, v) :: r =>
      let? g := kfind m f x in
      match g with
      | None => Some None
      | Some (p, _) => let? (_, acc') := kinsert m acc p v in prepare_map m f r acc'
      end
    end.
  (** The values of INSERT: ins.rs:27-33 of ql/dml/ins.rs [InsertData] *)
  Inductive insdata := Tuple (vs : list V) | Named (vs : list (bytes * V)).
  (** ins.rs:69-139, 56-62: the row gets the current version. Checks of types are not here. [Some None]: refused. *)
  Definition insert (s : mdl) (d : insdata) : option (option mdl) :=
    let? o := match d with
              | Tuple vs => if length vs =? length (fields s) then let? c := prepare_tuple (mm s) (fields s) vs [] in Some (Some c) else Some None
              | Named vs => if length vs =? length (fields s) then prepare_map (mm s) (fields s) vs [] else Some None
              end in
    match o with
    | None => Some None
    | Some c =>
      let? k := rd (mm s) (pk s) in
      let? g := kfind (mm s) c k in
      let? c' := kdelete (mm s) c k in
      match g with
      | None => Some None
      | Some _ => Some (Some (mk_mdl (mm s) (tab s) (pk s) (fields s) (deltas s) (rows s ++ [mk_row c' (version (deltas s))])))
      end
    end.

  (** What reading a name of a row gives: a cell, the primary key, or nothing (sel.rs:191-198, mdl_journal.rs:193-201) *)
  Inductive got := GCell (v : V) | GKey | GNone.
  (** sel.rs:191-198, mdl_journal.rs:193-201 for one name *)
  Definition read_name (m : mem) (k : ptr) (c : list (ptr * V)) (x : bytes) : option got :=
    let? f := kfind m c x in
    match f with
    | Some (_, v) => Some (GCell v)
    | None => let? y := rd m k in Some (if same x y then GKey else GNone)
    end.
  (** the loops of sel.rs:203-210, 104-110, 127-133, mdl_journal.rs:193-202 *)
  Fixpoint read_names (m : mem) (k : ptr) (c : list (ptr * V)) (l : list bytes) : option (list got) :=
    match l with
    | [] => Some []
    | x :: r => let? g := read_name m k c x in let? gs := read_names m k c r in Some (g :: gs)
    end.
  (** [fields().stseq_ord_key()] with each name read *)
  Fixpoint names_of (m : mem) (l : list (ptr * unit)) : option (list bytes) :=
    match l with
    | [] => Some []
    | (p, _) :: r => let? x := rd m p in let? xs := names_of m r in Some (x :: xs)
    end.
  (** replacing the [i]-th row object *)
  Fixpoint set_row (l : list row) (i : nat) (r : row) : list row :=
    match l, i with
    | [], _ => []
    | _ :: t, O => r :: t
    | a :: t, S j => a :: set_row t j r
    end.
  (** SELECT and the writing of a changed row to disk: pending changes are applied to the row, then it is read: the given names,
      or all fields (sel.rs:200-211, 100-136, mdl_journal.rs:262-280) *)
  Definition read_row (s : mdl) (i : nat) (which : option (list bytes)) : option (mdl * list got) :=
    match nth_error (rows s) i with
    | None => Some (s, [])
    | Some r =>
      let? r' := resolve (mm s) (deltas s) r in
      let? l := match which with Some l => Some l | None => names_of (mm s) (fields s) end in
      let? gs := read_names (mm s) (pk s) (r_cells r') l in
      Some (mk_mdl (mm s) (tab s) (pk s) (fields s) (deltas s) (set_row (rows s) i r'), gs)
    end.
  (** UPDATE: upd.rs:279-365: each assignment needs the name among the fields and in the row; pending changes are not applied
      first. [Some None]: refused, the row gets its old cells back. The new values are computed elsewhere (RowModel.v). *)
  Fixpoint assign (m : mem) (f : list (ptr * unit)) (c : list (ptr * V)) (l : list (bytes * V)) : option (option (list (ptr * V))) :=
    match l with
    | [] => Some (Some c)
    | (x, v) :: r =>
      let? a := kfind m f x in
      let? b := kfind m c x in
      match a, b with
      | Some _, Some _ => let? c' := kset m c x v in assign m f c' r
      | _, _ => Some None
      end
    end.
  (** upd.rs:262-376 *)
  Definition update (s : mdl) (i : nat) (l : list (bytes * V)) : option (option mdl) :=
    match nth_error (rows s) i with
    | None => Some None
    | Some r =>
      let? o := assign (mm s) (fields s) (r_cells r) l in
      match o with
      | None => Some None
      | Some c => Some (Some (mk_mdl (mm s) (tab s) (pk s) (fields s) (deltas s) (set_row (rows s) i (mk_row c (r_ver r)))))
      end
    end.

  (** *** Starting the server again *)
  (** The events about one model in the system log (storage/v2/impls/gns_log.rs), with what matters here *)
  Inductive event := ECreate (k : bytes) (l : list bytes) | EAdd (l : list bytes) | ERem (l : list bytes).
  (** storage/common_encoding/r1/impls/gns/model.rs:363-372, 453-462 *)
  Fixpoint replay (s : mdl) (l : list event) : option (option mdl) :=
    match l with
    | [] => Some (Some s)
    | ECreate _ _ :: _ => Some None
    | EAdd xs :: r => let? o := each_checked add_field s xs in match o with Some s' => replay s' r | None => Some None end
    | ERem xs :: r => let? o := each_checked remove_field s xs in match o with Some s' => replay s' r | None => Some None end
    end.
  (** the fields but the primary key: mdl_journal.rs:536-541 *)
  Fixpoint but_key (m : mem) (k : ptr) (l : list (ptr * unit)) : option (list (ptr * unit)) :=
    match l with
    | [] => Some []
    | (p, u) :: r =>
      let? x := rd m p in let? y := rd m k in let? t := but_key m k r in
      Some (if same x y then t else (p, u) :: t)
    end.
  (** mdl_journal.rs:534-562: a row of the data file, of a batch with the given version, is made with the names of the fields as
      they are now, then changes after that version are applied. Which rows stay in the index does not matter here: all are kept. *)
  Definition load_row (s : mdl) (b : N * list V) : option mdl :=
    let? f := but_key (mm s) (pk s) (fields s) in
    let? c := prepare_tuple (mm s) f (snd b) [] in
    let? r := resolve (mm s) (deltas s) (mk_row c (fst b)) in
    Some (mk_mdl (mm s) (tab s) (pk s) (fields s) (deltas s) (rows s ++ [r])).
  (** mdl_journal.rs:500-612 over a whole file *)
  Fixpoint load_rows (s : mdl) (l : list (N * list V)) : option mdl :=
    match l with
    | [] => Some s
    | b :: r => let? s' := load_row s b in load_rows s' r
    end.
  (** model/mod.rs:475-477 *)
  Definition vacuum_stashed (s : mdl) : mdl :=
    let '(m, t) := vacuum_marked (mm s) (tab s) in mk_mdl m t (pk s) (fields s) (deltas s) (rows s).
  (** storage/v2/mod.rs:119-138: the log, then the rows, then the names of removed fields are freed. The data file is any list of
      rows with any versions. [Some None]: the server does not start. *)
  Definition restart (log : list event) (file : list (N * list V)) : option (option mdl) :=
    match log with
    | ECreate k l :: r =>
      let? s := new_restore k l in
      let? o := replay s r in
      match o with
      | None => Some None
      | Some s' => let? s2 := load_rows s' file in Some (Some (vacuum_stashed s2))
      end
    | _ => Some None
    end.

  (** *** Histories *)
  (** A server with one model and the events about it in the log *)
  Record srv := mk_srv { md : mdl; log : list event }.
  (** what can happen to the model: CREATE and ALTER MODEL (core/model/alt.rs), rows (core/dml), background work and restarts *)
  Inductive op :=
  | OAdd (l : list bytes) | ORem (l : list bytes) | OInsert (d : insdata)
  | ORead (i : nat) (which : option (list bytes)) | OUpdate (i : nat) (l : list (bytes * V))
  | ORestart (file : list (N * list V)).
  (** The answers *)
  Inductive ans := ADone | ARefused | AGot (l : list got).
  (** The log gets an event before the model is changed (alt.rs:276-282, 293-301) *)
  Definition step (s : srv) (o : op) : option (srv * ans) :=
    match o with
    | OAdd l => let? r := alter_add (md s) l in
                Some (match r with Some m => (mk_srv m (log s ++ [EAdd l]), ADone) | None => (s, ARefused) end)
    | ORem l => let? r := alter_rem (md s) l in
                Some (match r with Some m => (mk_srv m (log s ++ [ERem l]), ADone) | None => (s, ARefused) end)
    | OInsert d => let? r := insert (md s) d in
                   Some (match r with Some m => (mk_srv m (log s), ADone) | None => (s, ARefused) end)
    | ORead i w => let? (m, g) := read_row (md s) i w in Some (mk_srv m (log s), AGot g)
    | OUpdate i l => let? r := update (md s) i l in
                     Some (match r with Some m => (mk_srv m (log s), ADone) | None => (s, ARefused) end)
    | ORestart file => let? r := restart (log s) file in
                       Some (match r with Some m => (mk_srv m (log s), ADone) | None => (s, ARefused) end)
    end.
  (** a sequence of statements and restarts *)
  Fixpoint run (s : srv) (l : list op) : option (srv * list ans) :=
    match l with
    | [] => Some (s, [])
    | o :: r => let? (s', a) := step s o in let? (s2, la) := run s' r in Some (s2, a :: la)
    end.
  (** CREATE MODEL (model/mod.rs:284-345): the log gets the primary key and the fields *)
  Definition create (l : list (bytes * bool)) : option (option srv) :=
    let? o := process_create l in
    match o with
    | None => Some None
    | Some s =>
      let? k := rd (mm s) (pk s) in
      let? xs := names_of (mm s) (fields s) in
      Some (Some (mk_srv s [ECreate k xs]))
    end.
End Machine.
Arguments mk_row {V}. Arguments row V : clear implicits. Arguments mdl V : clear implicits. Arguments srv V : clear implicits.
Arguments op V : clear implicits. Arguments ans V : clear implicits. Arguments got V : clear implicits. Arguments insdata V : clear implicits.
