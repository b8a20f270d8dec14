(** What a model of the whole server should hold, in terms of the history alone. *)
From Coq Require Import Strings.String List NArith Bool Arith.
From Verif Require Import Bytes AMap DataModel CodecModel GnsCodecModel GnsModel GnsProofs GnsHist RowModel BatchModel UpgradeModel WholeModel.
Import ListNotations.

Definition name_dec (a b : bytes) : {a = b} + {a <> b} := list_eq_dec Byte.byte_eq_dec a b.
Definition ent_dec (a b : ent) : {a = b} + {a <> b}.
Proof. decide equality; apply name_dec. Defined.

(** a CREATE MODEL that was answered so that the model is new *)
Definition creates (id : ent) (x : gop * gout) : Prop :=
  match x with
  | (GDdl _ _ (SCreateModel id' _ _ _), GoDdl (OEmpty | OBool true)) => id' = id
  | _ => False
  end.

(** the statements addressed to the model of that name since the last time one was created, with their
    answers *)
Definition own1 (id : ent) (l : list (rstmt * rout)) (x : gop * gout) : list (rstmt * rout) :=
  match x with
  | (GDdl _ _ (SCreateModel id' _ _ _), GoDdl (OEmpty | OBool true)) => if ent_dec id' id then [] else l
  | (GDdl _ _ (SAlterModel id' k), GoDdl OEmpty) => if ent_dec id' id then l ++ [(RAlter k true, RoOk)] else l
  | (GDml _ id' q, GoStmt r) => if ent_dec id' id then l ++ [(q, r)] else l
  | _ => l
  end.
Definition own (id : ent) (h : list (gop * gout)) : list (rstmt * rout) := fold_left (own1 id) h [].

(** the columns it was created with: those of the last CREATE MODEL that made it *)
Definition born (id : ent) (h : list (gop * gout)) (lay : layout) : Prop :=
  exists h1 i en fs props nx o h2,
    h = h1 ++ (GDdl i en (SCreateModel id fs props nx), GoDdl o) :: h2 /\
    creates id (GDdl i en (SCreateModel id fs props nx), GoDdl o) /\ Forall (fun x => ~ creates id x) h2 /\
    process_create_model (e_uuid en) fs props = inr lay.

(** the uuids generated *)
Definition used1 (x : gop * gout) : list N :=
  match x with
  | (GDdl _ en (SCreateSpace _ _ _), GoDdl _) | (GDdl _ en (SCreateModel _ _ _ _), GoDdl _) => [e_uuid en]
  | _ => []
  end.
Definition used (h : list (gop * gout)) : list N := flat_map used1 h.

(** no forced DROP SPACE failed at the log (C12, C13), no property is named twice in a statement (a map
    of the client; C41) *)
Definition usual (x : gop * gout) : Prop :=
  match x with
  | (GDdl _ _ s, GoDdl o) =>
      match s with
      | SDropSpace _ true _ => o <> OErr ErrServer
      | SCreateSpace _ _ _ | SAlterSpace _ _ => stmt_nd s
      | _ => True
      end
  | _ => True
  end.

(** what an event is about: the name in the statement or the task; dropping a space is about everything
    in it, a restart about everything *)
Definition concerns (g : gst) (o : gop) (id : ent) : Prop :=
  match o with
  | GDdl _ _ s =>
      match s with
      | SCreateModel x _ _ _ | SAlterModel x _ | SDropModel x _ _ => x = id
      | SDropSpace k _ _ => k = fst id
      | _ => False
      end
  | GDml _ x _ | GTake x | GStep x _ | GEnd x _ | GRecover x _ => x = id
  | GBegin i => match nth_error (g_tasks g) i with Some t => wt_id t = id | None => False end
  | GRestart _ _ => True
  | GLogin _ _ | GRepair | GDelete _ _ => False
  end.
