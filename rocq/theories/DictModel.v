(** Property dictionaries: flattening and merging, data/dict.rs. The dictionary type is that of
    CodecModel ([DictGeneric]). *)
From Coq Require Import List NArith Bool.
From Verif Require Import Bytes AMap DataModel CodecModel.
Import ListNotations.

(** [HashMap::get] on a dictionary, data/dict.rs:36 *)
Definition dget (k : bytes) (d : dict) : option dentry := aget bseq k d.

(** data/dict.rs:68-81 [rflatten_metadata]/[_rflatten_metadata]: null values are dropped, at every
    depth *)
Fixpoint flat_entry (e : dentry) : option dentry :=
  match e with
  | DData c => if cell_init c then Some (DData c) else None
  | DMap d =>
      Some (DMap ((fix go (d : list (bytes * dentry)) : dict :=
        match d with
        | [] => []
        | (k, e) :: d' => match flat_entry e with Some e' => (k, e') :: go d' | None => go d' end
        end) d))
  end.
(** data/dict.rs:68-81 *)
Fixpoint flatten (d : dict) : dict :=
  match d with
  | [] => []
  | (k, e) :: d' => match flat_entry e with Some e' => (k, e') :: flatten d' | None => flatten d' end
  end.

(** data/dict.rs:133-190 [rmerge_metadata_prepare_patch], one key: [cur] is [current.get(&key)], [e]
    the new entry; result: [okay] and the entry inserted into the patch, if any. *)
Fixpoint prep_entry (e : dentry) (cur : option dentry) : bool * option dentry :=
  match e with
  | DData n =>
      match cur with
      | Some (DData t) =>
          if cell_init n then
            if tclass_eqb (cell_class t) (cell_class n) then (true, Some (DData n)) else (false, None)
          else (true, Some (DData CNull))
      | Some (DMap _) =>
          (* an initialised value over a map meets the "non-null -> null" arm, dict.rs:179-182, whose
             debug assertion is compiled out *)
          (true, Some (DData CNull))
      | None => if cell_init n then (true, Some (DData n)) else (true, None)
      end
  | DMap m =>
      let go := (fix go (m : list (bytes * dentry)) (c p : dict) : bool * dict :=
        match m with
        | [] => (true, p)
        | (k, e) :: m' =>
            let '(ok, pe) := prep_entry e (dget k c) in
            let p' := match pe with Some pe => aput bseq k pe p | None => p end in
            if ok then go m' c p' else (false, p')
        end) in
      match cur with
      | Some (DData _) => (false, None)
      | Some (DMap c) => let '(ok, p) := go m c [] in (ok, Some (DMap p))
      | None => let '(ok, p) := go m [] [] in (ok, Some (DMap p))
      end
  end.
(** the loop of data/dict.rs:138-189 *)
Fixpoint prep_loop (new c p : dict) : bool * dict :=
  match new with
  | [] => (true, p)
  | (k, e) :: new' =>
      let '(ok, pe) := prep_entry e (dget k c) in
      let p' := match pe with Some pe => aput bseq k pe p | None => p end in
      if ok then prep_loop new' c p' else (false, p')
  end.
(** data/dict.rs:95-102 [rprepare_metadata_patch] *)
Definition prepare_patch (cur new : dict) : option dict :=
  let '(ok, p) := prep_loop new cur [] in if ok then Some p else None.

(** data/dict.rs:104-131 [rmerge_data_with_patch], one key: the new value of the key ([None]: removed
    or absent). The outer [None] is the [unreachable!()] panic of line 121. A map under a key that
    does not exist yet is merged into a fresh dictionary that is then dropped (124-127). *)
Fixpoint merge_entry (pe : dentry) (cur : option dentry) : option (option dentry) :=
  match pe with
  | DData c => if cell_init c then Some (Some (DData c)) else Some None
  | DMap m =>
      let go := (fix go (m : list (bytes * dentry)) (c : dict) : option dict :=
        match m with
        | [] => Some c
        | (k, e) :: m' =>
            match merge_entry e (dget k c) with
            | None => None
            | Some r => go m' (aset bseq k r c)
            end
        end) in
      match cur with
      | Some (DMap c) => match go m c with Some d => Some (Some (DMap d)) | None => None end
      | Some (DData _) => None
      | None => match go m [] with Some _ => Some None | None => None end
      end
  end.
(** data/dict.rs:104-131 *)
Fixpoint merge (cur patch : dict) : option dict :=
  match patch with
  | [] => Some cur
  | (k, e) :: p' =>
      match merge_entry e (dget k cur) with
      | None => None
      | Some r => merge (aset bseq k r cur) p'
      end
  end.

(** data/dict.rs:85-93 [rmerge_metadata]: [Some None] is [false] *)
Definition merge_metadata (cur new : dict) : option (option dict) :=
  match prepare_patch cur new with
  | None => Some None
  | Some p => match merge cur p with Some d => Some (Some d) | None => None end
  end.
