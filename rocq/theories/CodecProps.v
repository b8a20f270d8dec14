(** Property theorems: storage encoding (C01, C02, C03, C47, C48). *)
From Coq Require Import List NArith Strings.String.
From Verif Require Import Bytes DataModel CodecModel CodecProofs CodecInv.
Import ListNotations.
Local Open Scope N_scope.

(** ** C01. [utf8] is any validity check, [src] either of the two byte sources, [rest] whatever
    follows in the file. *)
Theorem C01_cell_roundtrip : forall utf8 src c rest, cell_wf utf8 c ->
  dec_cell utf8 src (b2n (enc_tag c)) (enc_cell c ++ rest) = ROk (c, rest).
Proof. intros utf8 src c rest. exact (dec_cell_roundtrip utf8 src c rest). Qed.
Print Assumptions C01_cell_roundtrip.

(** no two values share an encoding, even with arbitrary data following *)
Theorem C01_cell_encoding_injective : forall utf8 c c' r r', cell_wf utf8 c -> cell_wf utf8 c' ->
  enc_full c ++ r = enc_full c' ++ r' -> c = c' /\ r = r'.
Proof.
  intros utf8 c c' r r' H H' E. unfold enc_full in E. cbn [app] in E. injection E as E1 E2.
  pose proof (dec_cell_roundtrip utf8 SrcRead c r H) as A.
  pose proof (dec_cell_roundtrip utf8 SrcRead c' r' H') as B.
  rewrite E1, E2, B in A. injection A; auto.
Qed.
Print Assumptions C01_cell_encoding_injective.

Definition ex_cell : cell :=
  CList [CNull; CBool true; CQw QS8 255; CQw QF64 4607182418800017408;
         CList [CStr (bstr "hello"); CBin [x00; xff]]; CList []].

Example C01_example_wf : cell_wf (fun _ => true) ex_cell.
Proof. repeat constructor. Qed.
Example C01_example_bytes : List.length (enc_cell ex_cell) = 72%nat.
Proof. vm_compute. reflexivity. Qed.

(** ** C02. A dictionary is written as its entries in hash-iteration order; reading gives back
    exactly that association list, hence the same mapping. *)
Theorem C02_dict_roundtrip : forall utf8 d rest, dict_wf utf8 d ->
  dec_dict_full utf8 (enc_dict_full d ++ rest) = ROk (d, rest) /\
  dec_dict_obj utf8 (N.of_nat (List.length d)) (enc_dict_obj d ++ rest) = ROk (d, rest).
Proof.
  intros utf8 d rest H. exact (conj (dict_full_roundtrip utf8 d rest H) (dict_obj_roundtrip utf8 d rest H)).
Qed.
Print Assumptions C02_dict_roundtrip.

Definition ex_dict : dict :=
  [(bstr "env", DMap [(bstr "a", DData (CQw QU64 7)); (bstr "b", DMap []); (bstr "c", DData CNull)]);
   (bstr "k", DData ex_cell)].

Example C02_example_wf : dict_wf (fun _ => true) ex_dict.
Proof. repeat (constructor || (cbn; intuition discriminate)). Qed.

(** ** C03 *)
Theorem C03_layout_roundtrip : forall utf8 m rest, layout_wf utf8 m ->
  dec_layout utf8 (enc_layout m ++ rest) = ROk (m, rest).
Proof. intros utf8 m rest. exact (layout_roundtrip utf8 m rest). Qed.
Print Assumptions C03_layout_roundtrip.

Theorem C03_space_roundtrip : forall utf8 s rest, space_wf utf8 s ->
  dec_space utf8 (enc_space s ++ rest) = ROk (s, rest).
Proof. intros utf8 s rest. exact (space_roundtrip utf8 s rest). Qed.
Print Assumptions C03_space_roundtrip.

Definition ex_layout : layout :=
  mk_layout 12345678901234567890123 (bstr "username") TsStr
    [(bstr "username", mk_field false [TsStr]);
     (bstr "notes", mk_field true [TsList; TsList; TsU32])].

Example C03_example_wf : layout_wf (fun _ => true) ex_layout.
Proof.
  unfold layout_wf, fieldmap_wf. cbn.
  repeat (split; [reflexivity|]).
  split; [repeat (constructor || (cbn; intuition discriminate))|].
  split; [reflexivity|].
  repeat (constructor; cbn; try reflexivity; try discriminate).
Qed.

(** ** C47: a stored value has only one accepted byte form *)
Theorem C47_cell_canonical : forall utf8 src dscr l c rest, dscr_valid dscr = true ->
  dec_cell utf8 src dscr l = ROk (c, rest) ->
  dscr = b2n (enc_tag c) /\ l = enc_cell c ++ rest /\ cell_wf utf8 c.
Proof.
  intros utf8 src dscr l c rest H. apply N.leb_le in H.
  exact (dec_cell_inv utf8 src dscr l c rest H).
Qed.
Print Assumptions C47_cell_canonical.

Theorem C47_dict_canonical : forall utf8 l d rest,
  dec_dict_full utf8 l = ROk (d, rest) -> l = enc_dict_full d ++ rest /\ dict_wf utf8 d.
Proof. intros utf8 l d rest. exact (proj2 (dec_dict_inv utf8 _) l d rest). Qed.
Print Assumptions C47_dict_canonical.

(** accepted model definitions are canonical and well formed: unique field names, and every field
    type is zero or more lists around one scalar type *)
Theorem C47_layout_canonical : forall utf8 l m rest,
  dec_layout utf8 l = ROk (m, rest) -> l = enc_layout m ++ rest /\ layout_wf utf8 m.
Proof. exact dec_layout_inv. Qed.
Print Assumptions C47_layout_canonical.

Theorem C47_space_canonical : forall utf8 l s rest,
  dec_space utf8 l = ROk (s, rest) -> l = enc_space s ++ rest /\ space_wf utf8 s.
Proof. exact dec_space_inv. Qed.
Print Assumptions C47_space_canonical.

Example C47_layout_example :
  dec_layout (fun _ => true) (enc_layout ex_layout ++ [x2a]) = ROk (ex_layout, [x2a]).
Proof. vm_compute. reflexivity. Qed.

Example C47_space_example : forall s, s = mk_space_layout 7 ex_dict ->
  dec_space (fun _ => true) (enc_space s ++ [x2a]) = ROk (s, [x2a]).
Proof. intros s ->. vm_compute. reflexivity. Qed.

(** the decoders' recursion in the model is never cut short *)
Theorem C47_decoders_total : forall utf8 src dscr l,
  dec_cell utf8 src dscr l <> RFuel /\ dec_dict_full utf8 l <> RFuel.
Proof.
  intros utf8 src dscr l. split; [apply dec_cell_nofuel|].
  apply (proj2 (dec_dict_nofuel utf8 _)). auto.
Qed.
Print Assumptions C47_decoders_total.

Example C47_example : exists l c rest, dscr_valid 14 = true /\
  dec_cell (fun _ => true) SrcScan 14 l = ROk (c, rest) /\ c = ex_cell /\ rest = [x2a].
Proof. exists (enc_cell ex_cell ++ [x2a]), ex_cell, [x2a]. vm_compute. auto. Qed.

(** ** C48: reading stored metadata never reads outside the input. False for the in-memory source:
    the remaining length is tested once per dictionary, not once per entry, and declared key,
    string and binary lengths are not compared with what is left. *)
Theorem C48_dict_out_of_bounds_refuted : exists l, dec_dict_full (fun _ => true) l = RUb.
Proof.
  (* two entries declared, one present *)
  exists (u64_le 2 ++ enc_entry (bstr "k") (DData CNull)). vm_compute. reflexivity.
Qed.
Print Assumptions C48_dict_out_of_bounds_refuted.

Theorem C48_string_out_of_bounds_refuted : exists l, dec_cell (fun _ => true) SrcScan 13 l = RUb.
Proof. exists (u64_le 5 ++ bstr "abc"). vm_compute. reflexivity. Qed.
Print Assumptions C48_string_out_of_bounds_refuted.

(** It is true of the file reader used for row data: every overrun is reported as an error. *)
Theorem C48_row_cells_in_bounds_partial : forall utf8 dscr l,
  dec_cell utf8 SrcRead dscr l <> RUb.
Proof. intros utf8 dscr l. exact (proj1 (dec_reader_noub utf8 _) dscr l). Qed.
Print Assumptions C48_row_cells_in_bounds_partial.
