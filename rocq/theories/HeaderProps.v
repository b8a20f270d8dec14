(** Property theorems: file header (C05, C49). *)
From Coq Require Import List NArith Lia Strings.String.
From Verif Require Import Bytes HeaderModel HeaderProofs.
Import ListNotations.
Local Open Scope N_scope.

(** ** C05: written headers are accepted as what they are, with the metadata recovered exactly... *)
Theorem C05_header_roundtrip : forall b s epoch pad,
  build_wf b -> spec_wf s -> epoch < two128 -> List.length pad = 8%nat ->
  List.length (enc_header b s epoch pad) = 64%nat /\
  open_header b s (enc_header b s epoch pad) = HOk (new_header b s epoch pad).
Proof.
  intros b s epoch pad Hb Hs He Hp.
  exact (conj (proj1 (enc_header_segs b s epoch pad Hb Hs He Hp))
              (proj2 (header_roundtrip b s epoch pad Hb Hs He Hp))).
Qed.
Print Assumptions C05_header_roundtrip.

(** ... refused as anything else ... *)
Theorem C05_wrong_kind_refused : forall b s s' epoch pad,
  build_wf b -> spec_wf s -> epoch < two128 -> List.length pad = 8%nat -> s <> s' ->
  open_header b s' (enc_header b s epoch pad) = HVersionMismatch.
Proof. exact header_wrong_spec. Qed.
Print Assumptions C05_wrong_kind_refused.

(** ... and exactly the blocks with the right magic, versions, kind and in-range host fields are
    accepted, whatever the 64 bytes are. *)
Theorem C05_accepted_iff : forall b s l h, open_header b s l = HOk h <->
  le_dec (seg 0 8 l) = 0x4F48534159414E21 /\ le_dec (seg 8 8 l) = 0 /\
  le_dec (seg 16 8 l) = b_server b /\ le_dec (seg 24 8 l) = b_driver b /\
  le_dec (seg 32 1 l) <= 13 /\ le_dec (seg 33 1 l) <= 5 /\ le_dec (seg 34 1 l) <= 1 /\
  le_dec (seg 35 1 l) <= 1 /\ le_dec (seg 36 1 l) <= 1 /\ le_dec (seg 37 1 l) <= 1 /\
  le_dec (seg 36 1 l) = fs_class s /\ le_dec (seg 37 1 l) = fs_spec s /\ le_dec (seg 38 2 l) = fs_ver s /\
  h = mk_header (le_dec (seg 8 8 l)) (le_dec (seg 16 8 l)) (le_dec (seg 24 8 l))
             (le_dec (seg 32 1 l)) (le_dec (seg 33 1 l)) (le_dec (seg 34 1 l)) (le_dec (seg 35 1 l))
             (le_dec (seg 36 1 l)) (le_dec (seg 37 1 l)) (le_dec (seg 38 2 l))
             (le_dec (seg 40 16 l)) (seg 56 8 l).
Proof. exact open_header_iff. Qed.
Print Assumptions C05_accepted_iff.

(** a header written by a build with another server or driver version is refused *)
Theorem C05_other_version_refused : forall b b' s s' epoch pad,
  build_wf b -> spec_wf s -> epoch < two128 -> List.length pad = 8%nat ->
  (b_server b <> b_server b' \/ b_driver b <> b_driver b') ->
  forall h, open_header b' s' (enc_header b s epoch pad) <> HOk h.
Proof.
  intros b b' s s' epoch pad Hb Hs He Hp Hne h H.
  apply open_header_iff in H.
  destruct (enc_header_segs b s epoch pad Hb Hs He Hp) as (_ & _ & _ & E16 & E24 & _).
  destruct H as (_ & _ & F16 & F24 & _). destruct Hne as [N|N]; congruence.
Qed.
Print Assumptions C05_other_version_refused.

Definition ex_build : build := mk_build 0 1 0 1 1 1.
Example C05_example : build_wf ex_build /\ spec_wf spec_gns /\ spec_wf spec_model /\ spec_gns <> spec_model.
Proof. repeat split; vm_compute; congruence. Qed.

(** ** C49: each released version has its own number. False: [fetch_id] compares the byte at the
    table index instead of the loop index (and not at all when lengths differ), so every release
    tag gets number 0 and a header does not identify the server version that wrote it. *)
Theorem C49_version_ids_refuted : exists a b,
  In a version_tags /\ In b version_tags /\ a <> b /\ fetch_id a = fetch_id b /\ fetch_id a <> None.
Proof.
  exists (bstr "v0.1.0"), (bstr "v0.8.0"). 
  split; [left; reflexivity|]. split; [|vm_compute; repeat split; congruence].
  unfold version_tags. apply in_map. cbn. tauto.
Qed.
Print Assumptions C49_version_ids_refuted.

(** the extent of it: every tag maps to 0 *)
Theorem C49_all_ids_zero_refuted : forall id, In id version_tags -> fetch_id id = Some 0.
Proof.
  intros id H. apply fetch_id_zero. right. unfold version_tags in H. apply in_map_iff in H as (s & <- & H).
  cbn in H. repeat (destruct H as [<-|H]; [reflexivity|]). contradiction.
Qed.
Print Assumptions C49_all_ids_zero_refuted.
