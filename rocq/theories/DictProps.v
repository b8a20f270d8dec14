(** C44: property dictionaries are patched exactly. *)
From Coq Require Import Strings.String List NArith Bool.
From Verif Require Import Bytes AMap DataModel CodecModel DictModel DictProofs.
Import ListNotations.

(** Full statement of C44: applying an acceptable dictionary gives, at every path, what the user
    asked for. *)
Definition C44_statement : Prop :=
  forall cur new, dict_nd cur -> dict_nd new -> acceptable cur new ->
    exists d, merge_metadata cur new = Some (Some d) /\
      forall p, look p (DMap d) = want p (Some (DMap new)) (Some (DMap cur)).

(** Refuted: a map under a key that is not there yet is lost. *)
Definition ex44_cur : dict := [(bstr "env"%string, DMap [(bstr "a"%string, DData (CBool true))])].
Definition ex44_new : dict :=
  [(bstr "env"%string, DMap [(bstr "cfg"%string, DMap [(bstr "x"%string, DData (CQw QU64 5%N))])])].

Lemma ex44_nd : dict_nd ex44_cur /\ dict_nd ex44_new.
Proof. split; repeat (constructor; cbn; auto). Qed.

Lemma ex44_acc : acceptable ex44_cur ex44_new.
Proof.
  apply prepare_accepts; [apply ex44_nd|]. eexists. vm_compute. reflexivity.
Qed.

Theorem C44_merge_refuted : ~ C44_statement.
Proof.
  intros H. destruct (H _ _ (proj1 ex44_nd) (proj2 ex44_nd) ex44_acc) as (d & M & V).
  specialize (V [bstr "env"%string; bstr "cfg"%string; bstr "x"%string]).
  vm_compute in M. injection M as <-. vm_compute in V. discriminate.
Qed.

(** Refuted a second way, without any new map: a value written over a map does not replace the map,
    it deletes the key. *)
Definition ex44_new2 : dict :=
  [(bstr "env"%string, DMap [(bstr "m"%string, DData (CBool true))])].
Definition ex44_cur2 : dict := [(bstr "env"%string, DMap [(bstr "m"%string, DMap [])])].
Theorem C44_value_over_map_refuted :
  exists cur new, dict_nd cur /\ dict_nd new /\ acceptable cur new /\
    exists d p, merge_metadata cur new = Some (Some d) /\
      look p (DMap d) = None /\ want p (Some (DMap new)) (Some (DMap cur)) = Some (LCell (CBool true)).
Proof.
  exists ex44_cur2, ex44_new2. repeat split.
  - repeat (constructor; cbn; auto).
  - repeat (constructor; cbn; auto).
  - apply prepare_accepts; [repeat (constructor; cbn; auto)|]. eexists. vm_compute. reflexivity.
  - eexists _, [bstr "env"%string; bstr "m"%string]. repeat split; vm_compute; reflexivity.
Qed.

(** A patch is accepted exactly if it is acceptable, and an accepted patch never panics; the result at
    every path is [got]. *)
Theorem C44_accepts_exactly : forall cur new, dict_nd new ->
  (acceptable cur new <-> exists d, merge_metadata cur new = Some (Some d)) /\
  (~ acceptable cur new <-> merge_metadata cur new = Some None) /\
  merge_metadata cur new <> None.
Proof.
  intros cur new ND. unfold merge_metadata. pose proof (prepare_accepts cur new ND) as A.
  destruct (prepare_patch cur new) as [p|] eqn:P.
  - destruct (prepare_merge _ _ _ ND P) as (d & M & _). rewrite M.
    repeat split; try discriminate; eauto.
    + intros _. apply A. eauto.
    + intros H. exfalso. apply H, A. eauto.
  - repeat split; try discriminate; eauto.
    + intros H. apply A in H as [? ?]. discriminate.
    + intros [? ?]. discriminate.
    + intros _ H. apply A in H as [? ?]. discriminate.
Qed.

Theorem C44_merge_result : forall cur new d, dict_nd new -> merge_metadata cur new = Some (Some d) ->
  forall p, look p (DMap d) = got p (Some (DMap new)) (Some (DMap cur)).
Proof.
  intros cur new d ND H. unfold merge_metadata in H.
  destruct (prepare_patch cur new) as [p|] eqn:P; [|discriminate].
  destruct (prepare_merge _ _ _ ND P) as (d' & M & V). rewrite M in H. injection H as <-. exact V.
Qed.

(** What is missing from the full statement: patches that bring a new nested map or put a value over
    a map. *)
Theorem C44_merge_partial : forall cur new, dict_nd cur -> dict_nd new -> acceptable cur new ->
  no_new_maps cur new ->
  exists d, merge_metadata cur new = Some (Some d) /\
    forall p, look p (DMap d) = want p (Some (DMap new)) (Some (DMap cur)).
Proof.
  intros cur new NC NN A NM.
  destruct (proj1 (proj1 (C44_accepts_exactly cur new NN)) A) as [d M]. exists d. split; [exact M|].
  intros p. rewrite (C44_merge_result _ _ _ NN M p). apply got_want. intros q l L. apply (NM q l L).
Qed.

(** Every nested map under a missing key is lost, whatever is in it: at no path below it does the
    result hold anything. *)
Theorem C44_new_map_lost : forall cur new d k m q, dict_nd new ->
  merge_metadata cur new = Some (Some d) -> dget k new = Some (DMap m) -> dget k cur = None ->
  look (k :: q) (DMap d) = None.
Proof.
  intros cur new d k m q ND M N C. rewrite (C44_merge_result _ _ _ ND M). cbn [got sub]. rewrite N, C.
  destruct q; reflexivity.
Qed.

(** Dictionaries stored by CREATE SPACE: flattening keeps every non-null leaf and every map, and drops
    the nulls. *)
Theorem C44_flatten_exact : forall d, dict_nd d -> forall p,
  look p (DMap (flatten d)) =
    match look p (DMap d) with
    | Some (LCell c) => if cell_init c then Some (LCell c) else None
    | x => x
    end.
Proof.
  intros d ND p. pose proof (flat_entry_look (DMap d) ND p) as E. rewrite flat_entry_map in E. exact E.
Qed.

(** Stored properties never contain a null. *)
Theorem C44_no_nulls_stored : forall cur new d, dict_nd new -> no_nulls cur ->
  merge_metadata cur new = Some (Some d) -> no_nulls d.
Proof.
  intros cur new d ND NN M p c L. rewrite (C44_merge_result _ _ _ ND M) in L.
  apply (got_no_nulls p (Some (DMap new)) (Some (DMap cur)) c); auto.
Qed.

(** An instance of the partial theorem: one value changed, one deleted, one added, one nested change,
    one kept. *)
Definition ex44_c3 : dict :=
  [(bstr "a"%string, DData (CQw QU64 1%N)); (bstr "b"%string, DData (CBool true));
   (bstr "m"%string, DMap [(bstr "x"%string, DData (CStr (bstr "old"%string)))]);
   (bstr "k"%string, DData (CStr (bstr "kept"%string)))].
Definition ex44_n3 : dict :=
  [(bstr "a"%string, DData (CQw QU8 2%N)); (bstr "b"%string, DData CNull);
   (bstr "m"%string, DMap [(bstr "x"%string, DData (CStr (bstr "new"%string)))]);
   (bstr "n"%string, DData (CBool false))].
Example C44_example : merge_metadata ex44_c3 ex44_n3 = Some (Some
  [(bstr "a"%string, DData (CQw QU8 2%N));
   (bstr "m"%string, DMap [(bstr "x"%string, DData (CStr (bstr "new"%string)))]);
   (bstr "k"%string, DData (CStr (bstr "kept"%string)));
   (bstr "n"%string, DData (CBool false))]).
Proof. vm_compute. reflexivity. Qed.
Example C44_example_hyps : dict_nd ex44_c3 /\ dict_nd ex44_n3 /\ acceptable ex44_c3 ex44_n3 /\
  no_new_maps ex44_c3 ex44_n3.
Proof.
  assert (N1 : dict_nd ex44_c3).
  { repeat (constructor; cbn; auto); intros X; repeat destruct X as [X|X]; (discriminate || auto). }
  assert (N2 : dict_nd ex44_n3).
  { repeat (constructor; cbn; auto); intros X; repeat destruct X as [X|X]; (discriminate || auto). }
  repeat split; auto.
  - apply prepare_accepts; [exact N2|]. eexists. vm_compute. reflexivity.
  - intros p l L. destruct p as [|k p]; [injection L as <-; reflexivity|]. cbn in L.
    unfold dget in L. cbn [aget ex44_n3] in L.
    repeat match type of L with
    | context [bseq k ?x] => destruct (bseq k x) eqn:?
    end; try discriminate.
    all: match goal with E : bseq _ _ = true |- _ => apply bseq_eq in E; rewrite E in * end.
    all: try (destruct p; [injection L as <-; vm_compute; intros; discriminate|discriminate]).
    destruct p as [|k1 p]; [injection L as <-; reflexivity|]. cbn in L. unfold dget in L. cbn [aget] in L.
    match type of L with context [bseq k1 ?x] => destruct (bseq k1 x) eqn:B; [|discriminate] end. apply bseq_eq in B. subst k1.
    destruct p; [injection L as <-; intros _; vm_compute; discriminate|discriminate].
Qed.
(** a patch that is refused: the kind changes *)
Example C44_example_refused :
  merge_metadata ex44_c3 [(bstr "a"%string, DData (CBool true))] = Some None.
Proof. vm_compute. reflexivity. Qed.

Print Assumptions C44_merge_refuted.
Print Assumptions C44_value_over_map_refuted.
Print Assumptions C44_accepts_exactly.
Print Assumptions C44_merge_result.
Print Assumptions C44_merge_partial.
Print Assumptions C44_new_map_lost.
Print Assumptions C44_flatten_exact.
Print Assumptions C44_no_nulls_stored.
