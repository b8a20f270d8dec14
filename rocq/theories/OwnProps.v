(** C91: who frees what. Programs over literals, cells, primary keys and rows: OwnModel.v; the same programs without memory, and
    the counting of owners: OwnSpec.v. *)
From Coq Require Import Strings.String List NArith Bool Arith Lia.
From Verif Require Import Bytes OwnModel OwnSpec OwnProofs OwnSteps.
Import ListNotations.
Local Open Scope string_scope.

(** The full statement: no program the compiler accepts uses freed memory, or frees it twice. It is false, see below. *)
Definition C91_full : Prop := forall l, run start l <> UB.

(** Proved: it holds of every program that keeps away from four operations on certain values ([careful]). Missing: those four. *)
Theorem C91_safe_partial : forall l, all_careful start l = true -> run start l <> UB.
Proof. intros l C E. pose proof (run_ok l _ _ _ inv_start C) as R. rewrite E in R. exact R. Qed.
(** What is read is what was put in, whatever was copied, moved and dropped meanwhile. *)
Theorem C91_values_partial : forall l s out, all_careful start l = true -> run start l = Ok (s, out) -> exists t, arun nothing l = Some (t, out).
Proof. intros l s out C E. pose proof (run_ok l _ _ _ inv_start C) as R. rewrite E in R. destruct R as (t & kf & A & _). eauto. Qed.
(** At any time each block that is not freed has one owner, and owners own only such blocks. *)
Theorem C91_owned_partial : forall l s out, all_careful start l = true -> run start l = Ok (s, out) ->
  NoDup (owned s) /\ forall a, In a (owned s) <-> exists bs, nth_error (mm s) a = Some (Some bs).
Proof.
  intros l s out C E. pose proof (run_ok l _ _ _ inv_start C) as R. rewrite E in R. destruct R as (t & kf & _ & I).
  pose proof (owned_cnt _ _ _ I) as Q. split.
  - apply (NoDup_count_occ Nat.eq_dec). intros a. rewrite Q. apply live_le.
  - intros a. rewrite cnt_in, Q. unfold live. destruct (nth_error (mm s) a) as [[b|]|]; split; intros H; try lia; eauto; destruct H as (bs & D); discriminate D.
Qed.
(** At any time all variables can go out of scope, and then nothing is left: no block, no row. *)
Theorem C91_no_leak_partial : forall l s out, all_careful start l = true -> run start l = Ok (s, out) ->
  exists s' out', run start (l ++ scope_end s) = Ok (s', out') /\ gone s' /\ freed s'.
Proof.
  intros l s out C E. pose proof (run_ok l _ _ _ inv_start C) as R. rewrite E in R. destruct R as (t & kf & _ & I).
  destruct (scope_end_ok _ _ _ I) as (s' & out' & R & G & F). exists s', (out ++ out')%list. split; [|auto]. rewrite run_app, E, R. reflexivity.
Qed.
(** The same for variables that went away in any order. *)
Theorem C91_all_dropped_partial : forall l s out, all_careful start l = true -> run start l = Ok (s, out) -> gone s -> freed s.
Proof. intros l s out C E G. pose proof (run_ok l _ _ _ inv_start C) as R. rewrite E in R. destruct R as (t & kf & _ & I). eapply gone_freed; eassumption. Qed.

(** The four operations. The only careless one in each of these programs is the one named. *)
Fixpoint careless (s : st) (l : list op) : list op :=
  match l with
  | [] => []
  | o :: r => (if careful s o then [] else [o]) ++ match step s o with Ok (s', _) => careless s' r | _ => [] end
  end.
(** lit.rs:133-166, 209-216: the slice of a literal that owns its bytes lives as long as ['a], not as long as the literal. *)
Theorem C91_literal_slice_refuted : exists l, run start l = UB /\ exists v, careless start l = [LitSlice v].
Proof.
  exists [NewBox (bstr "ab"); LitBox 0; LitSlice 1; Drop 1; Show 2]. split; [vm_compute; reflexivity|]. exists 1. vm_compute. reflexivity.
Qed.
(** cell.rs:524-534: a virtual cell made from a literal that owns its bytes. *)
Theorem C91_virtual_literal_refuted : exists l, run start l = UB /\ exists v, careless start l = [VirtLit v].
Proof.
  exists [NewBox (bstr "ab"); LitBox 0; VirtLit 1; Show 2]. split; [vm_compute; reflexivity|]. exists 1. vm_compute. reflexivity.
Qed.
(** key.rs:52-73: the copy of a number is taken for an address ... *)
Theorem C91_clone_number_refuted : exists l, run start l = UB /\ exists v, careless start l = [KeyClone v].
Proof. exists [KeyNum UInt 5; KeyClone 0]. split; [vm_compute; reflexivity|]. exists 0. vm_compute. reflexivity. Qed.
(** ... and the copy of a string shares its bytes: freed twice. *)
Theorem C91_clone_string_refuted : exists l, run start l = UB /\ exists v, careless start l = [KeyClone v].
Proof. exists [NewBox (bstr "ab"); KeyBox Str 0; KeyClone 1; Drop 1; Drop 2]. split; [vm_compute; reflexivity|]. exists 1. vm_compute. reflexivity. Qed.
(** upd.rs:330-337: an element is appended to a list that is null. *)
Theorem C91_push_null_refuted : exists l, run start l = UB /\ exists v i c, careless start l = [RowPush v i c].
Proof.
  exists [NewCells; CellNull; PushCell 0 1; KeyNum UInt 7; RowNew 2 0; CellNum UInt 1; RowPush 3 0 4].
  split; [vm_compute; reflexivity|]. exists 3, 0, 4. vm_compute. reflexivity.
Qed.
Theorem C91_full_refuted : ~ C91_full.
Proof. intros F. apply (F [KeyNum UInt 5; KeyClone 0]). vm_compute. reflexivity. Qed.

(** A program that meets the condition: a string literal becomes a cell, a list of two and a number go to a row with a string as its
    key; a second handle is made, one cell is replaced, the list grows; the key is looked at; everything is read. *)
Definition ex : list op :=
  [NewBox (bstr "hello"); Slice 0 1 3; LitRef Str 1; LitClone 2; CellLit 3;              (* 4: cell "ell" *)
   NewCells; PushCell 5 4; CellList 5;                                                   (* 6: cell ["ell"] *)
   NewCells; PushCell 7 6; CellNum UInt 9; PushCell 7 8;                                 (* 7: [["ell"], 9] *)
   NewBox (bstr "key"); KeyBox Str 9; RowNew 10 7; RowClone 11; VirtKey 12;              (* 11, 12: the row; 13: its key *)
   NewBox (bstr "new"); CellBox Bin 14; RowSet 12 1 15; NewBox (bstr "more"); CellBox Str 16; RowPush 11 0 17;
   Drop 2; Drop 1; Drop 0; Show 13; RowRead 11 1; RowRead 12 0; Drop 11; RowRead 12 1; Show 12].
Definition ex_end : st := match run start ex with Ok (s, _) => s | _ => start end.
Example C91_case : all_careful start ex = true /\
  match run start ex with
  | Ok (_, out) => filter (fun o => match o with Some _ => true | None => false end) out =
      [Some (SBytes Str (bstr "key")); Some (SBytes Bin (bstr "new")); Some (SList [SBytes Str (bstr "ell"); SBytes Str (bstr "more")]);
       Some (SBytes Bin (bstr "new")); Some (SBytes Str (bstr "key"))]
  | _ => False
  end.
Proof. split; vm_compute; reflexivity. Qed.
Example C91_case_owned : owned ex_end = [2; 1; 4; 3] /\ scope_end ex_end = [Drop 13; Drop 12].
Proof. split; vm_compute; reflexivity. Qed.
Example C91_case_end : match run start (ex ++ scope_end ex_end) with Ok (s, _) => List.length (mm s) = 5 /\ forallb (fun b => match b with None => true | _ => false end) (mm s) = true /\ objs s = [None] | _ => False end.
Proof. vm_compute. auto. Qed.

Print Assumptions C91_safe_partial.
Print Assumptions C91_values_partial.
Print Assumptions C91_owned_partial.
Print Assumptions C91_no_leak_partial.
Print Assumptions C91_all_dropped_partial.
Print Assumptions C91_literal_slice_refuted.
Print Assumptions C91_virtual_literal_refuted.
Print Assumptions C91_clone_number_refuted.
Print Assumptions C91_clone_string_refuted.
Print Assumptions C91_push_null_refuted.
Print Assumptions C91_full_refuted.
