(** When an assignment of an UPDATE takes the memory of a cell for something it is not *)
From Coq Require Import List NArith.
From Verif Require Import Bytes AMap DataModel CodecModel GnsCodecModel GnsModel RowModel RowSpec.
Import ListNotations.

(** An append that takes the cell for what its column is declared to be, while it is something else *)
Inductive blind (fs : fieldmap) (m : rfields) (a : assign) : Prop :=
| blind_list f t ls c : aget bseq (as_lhs a) fs = Some f -> f_layers f = TsList :: t :: ls -> tsel_class t = lit_class (as_rhs a) -> as_op a = AAdd ->
    aget bseq (as_lhs a) m = Some c -> (forall xs, c <> CList xs) -> blind fs m a
| blind_bytes f c b : aget bseq (as_lhs a) fs = Some f -> (f_layers f = [TsBin] /\ as_rhs a = LBin b \/ f_layers f = [TsStr] /\ as_rhs a = LStr b) -> as_op a = AAdd ->
    aget bseq (as_lhs a) m = Some c -> c <> CNull -> (forall x, c <> CBin x) -> (forall x, c <> CStr x) -> blind fs m a.

(** With ALTER left out this is all that remains: an element is appended to a list that is null. *)
Inductive null_append (fs : fieldmap) (m : rfields) (a : assign) : Prop :=
| null_append_i f t ls : aget bseq (as_lhs a) fs = Some f -> f_null f = true -> f_layers f = TsList :: t :: ls -> tsel_class t = lit_class (as_rhs a) ->
    as_op a = AAdd -> aget bseq (as_lhs a) m = Some CNull -> null_append fs m a.
