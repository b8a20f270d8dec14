(** What an upgrade must keep. *)
From Coq Require Import List NArith Bool.
From Verif Require Import Bytes AMap DataModel CodecModel GnsCodecModel GnsModel RowModel BatchModel.
Import ListNotations.
Local Open Scope N_scope.

(** the same spaces (uuid, properties, models), the same model definitions, the same accounts *)
Definition same_space (a b : option mspace) : Prop :=
  match a, b with
  | None, None => True
  | Some x, Some y => sp_uuid x = sp_uuid y /\ sp_props x = sp_props y /\ forall m, In m (sp_models x) <-> In m (sp_models y)
  | _, _ => False
  end.
Definition same_ns (n n' : ns) : Prop :=
  (forall k, same_space (aget bseq k (n_spaces n)) (aget bseq k (n_spaces n'))) /\
  (forall id, option_map md_lay (aget ent_eqb id (n_models n)) = option_map md_lay (aget ent_eqb id (n_models n'))) /\
  (forall u, aget bseq u (n_users n) = aget bseq u (n_users n')).

(** ** The meaning of a batch of the old format for one key *)
(** the changes of the key, and the numbers of its deletions *)
Definition puts_of (k : pkey) (es : list bev) : list bev :=
  filter (fun e => match be_kind e with DkDelete => false | _ => pkey_eqb (be_key e) k end) es.
Definition dels_of (k : pkey) (es : list bev) : list N :=
  map be_txn (filter (fun e => match be_kind e with DkDelete => pkey_eqb (be_key e) k | _ => false end) es).
(** [w] is the value with the largest number among [v] and the changes, the later one of equals; rows have
    [n] columns, missing ones are null *)
Definition newest (n : nat) (v : option (N * list cell)) (ps : list bev) (w : option (N * list cell)) : Prop :=
  match w with
  | None => v = None /\ ps = []
  | Some (r, cs) =>
      (v = Some (r, cs) /\ Forall (fun e => be_txn e < r) ps) \/
      exists a e b, ps = a ++ e :: b /\ be_txn e = r /\ be_cells e ++ repeat CNull (n - length (be_cells e)) = cs /\
        Forall (fun x => be_txn x <= r) a /\ Forall (fun x => be_txn x < r) b /\
        (forall r0 cs0, v = Some (r0, cs0) -> r0 <= r)
  end.
