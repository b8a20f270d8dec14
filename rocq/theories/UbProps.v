(** C94: no statement leads to undefined behaviour. *)
From Coq Require Import Strings.String List NArith ZArith Bool Lia Permutation.
From Verif Require Import Bytes AMap DataModel CodecModel CodecProofs DictModel TypeModel GnsCodecModel GnsModel GnsProofs RowModel RowSpec RowProofs RowTable RowUpd RowAlter RowLemmas RowProps UbSpec UbProofs.
Import ListNotations.
Local Open Scope N_scope.

(** Exactly when: whatever statements, ALTER among them, have been executed, the next one is undefined if and only if it is an UPDATE of an
    existing row one assignment of which appends to a cell that is, after the assignments before it, not of the shape its column declares. *)
Theorem C94_exact : forall farith order, (forall l, Permutation (order l) l) ->
  forall lay h s q, lay_ok lay -> rhist farith order (mst_new lay) h s -> Forall (fun e => stmt_ok (fst e)) h ->
  (snd (rstep farith order s q) = RoUb <->
   exists w asg k p a r m, q = RUpdate w asg /\ asked (m_lay s) w = Some k /\ asg = p ++ a :: r /\
     snd (rstep farith order s (RUpdate w p)) = RoOk /\ rows_of (fst (rstep farith order s (RUpdate w p))) k = Some m /\
     blind (lo_fields (m_lay s)) m a).
Proof.
  intros farith order OP lay h s q LO H HF. pose proof (reach_hist farith order OP lay h s LO H HF) as R. pose proof R as [GI ND IF]. pose proof GI as [IL IN IR].
  pose proof (lay_layers (m_lay s) IL) as LK. split.
  - intros U. destruct (step_ub farith order s q GI IF U) as (w & asg & ->).
    pose proof (update_cases farith order s w asg GI IF) as UC. destruct (asked (m_lay s) w) as [k|] eqn:A.
    2: { rewrite UC in U. discriminate U. }
    destruct (aget pkey_eqb k (m_idx s)) as [i|] eqn:G.
    2: { rewrite UC in U. discriminate U. }
    destruct UC as (o & E & K & RO & _). destruct (update_row_after farith order s w asg k _ R A RO) as [E1 _]. rewrite E1 in U.
    apply (update_ub farith _ _ _ LK) in U as (p & a & r & m & -> & E2 & B).
    destruct (update_row_after farith order s w p k _ R A RO) as [E3 E4]. rewrite E2 in E3, E4. exists w, (p ++ a :: r), k, p, a, r, m. auto 8.
  - intros (w & asg & k & p & a & r & m & -> & A & -> & E1 & E2 & B).
    assert (X : exists m0, rows_of s k = Some m0).
    { pose proof (update_cases farith order s w p GI IF) as UC. rewrite A in UC. destruct (aget pkey_eqb k (m_idx s)) as [i|] eqn:G.
      - destruct UC as (o & _ & _ & RO & _). eauto.
      - rewrite UC in E1. discriminate E1. }
    destruct X as [m0 RO]. destruct (update_row_after farith order s w p k _ R A RO) as [E3 E4].
    destruct (update_row_after farith order s w (p ++ a :: r) k _ R A RO) as [E5 _]. rewrite E5. apply (update_ub farith _ _ _ LK).
    exists p, a, r, m. split; [reflexivity|]. split; [|exact B].
    rewrite E1 in E3. rewrite E2 in E4. destruct (update_row farith (lo_fields (m_lay s)) m0 p) as [m1 o]. cbn [fst snd] in *. congruence.
Qed.
Print Assumptions C94_exact.

(** As long as the table is never altered: if and only if an element is appended to a list that is null in a nullable list column. *)
Theorem C94_without_alter : forall farith order, (forall l, Permutation (order l) l) ->
  forall lay h s q, lay_ok lay -> rhist farith order (mst_new lay) h s -> Forall (fun e => dml_ok (fst e)) h ->
  (snd (rstep farith order s q) = RoUb <->
   exists w asg k p a r m, q = RUpdate w asg /\ asked lay w = Some k /\ asg = p ++ a :: r /\
     snd (rstep farith order s (RUpdate w p)) = RoOk /\ rows_of (fst (rstep farith order s (RUpdate w p))) k = Some m /\
     null_append (lo_fields lay) m a).
Proof.
  intros farith order OP lay h s q LO H HF.
  assert (HS : Forall (fun e => stmt_ok (fst e)) h).
  { eapply Forall_impl; [|exact HF]. intros [q0 r0] D. cbn [fst] in *. destruct q0; try exact Logic.I. exact D. }
  rewrite (C94_exact farith order OP lay h s q LO H HS).
  destruct (rows_kept farith order lay h s LO H HF) as [EL _]. rewrite EL.
  split; intros (w & asg & k & p & a & r & m & -> & A & -> & E1 & E2 & B); exists w, (p ++ a :: r), k, p, a, r, m; do 5 (split; [auto|]).
  - destruct (rstep farith order s (RUpdate w p)) as [s1 o] eqn:ES. cbn [fst snd] in *. subst o.
    assert (H1 : rhist farith order (mst_new lay) (h ++ [(RUpdate w p, RoOk)]) s1) by (eapply rh_snoc; [exact H|exact ES|discriminate]).
    assert (HF1 : Forall (fun e => dml_ok (fst e)) (h ++ [(RUpdate w p, RoOk)])).
    { apply Forall_app. split; [exact HF|]. repeat constructor. }
    destruct (rows_kept farith order lay _ s1 LO H1 HF1) as [_ RK]. destruct (RK _ _ E2) as [SH LS].
    destruct B as [f t ls c G1 G2 G3 G4 G5 G6|f c b G1 G2 G4 G5 G6 G7 G8].
    + destruct (SH _ _ _ G1 G5) as [->|SC].
      * destruct (f_null f) eqn:N; [eapply null_append_i; eauto|]. destruct (LS _ _ G5 f (t :: ls) G1 N G2) as [xs D]. discriminate D.
      * rewrite G2 in SC. inversion SC; subst.
        all: try match goal with X : qsel_tsel ?z = TsList |- _ => destruct z; discriminate X end.
        match goal with X : forall xs, CList ?l <> CList xs |- _ => destruct (X l eq_refl) end.
    + exfalso. destruct (SH _ _ _ G1 G5) as [->|SC]; [congruence|]. destruct G2 as [[G2 _]|[G2 _]]; rewrite G2 in SC; inversion SC; subst.
      all: try match goal with X : qsel_tsel ?z = _ |- _ => destruct z; discriminate X end. all: try (eapply G7; reflexivity). all: eapply G8; reflexivity.
  - destruct B as [f t ls G1 G2 G3 G4 G5 G6]. eapply blind_list; eauto. intros xs D. discriminate D.
Qed.
Print Assumptions C94_without_alter.

(** So tables that are not altered and have no nullable list column are safe. *)
Theorem C94_safe_partial : forall farith order, (forall l, Permutation (order l) l) ->
  forall lay h s q, lay_ok lay -> (forall c f ls, aget bseq c (lo_fields lay) = Some f -> f_layers f = TsList :: ls -> f_null f = false) ->
  rhist farith order (mst_new lay) h s -> Forall (fun e => dml_ok (fst e)) h -> snd (rstep farith order s q) <> RoUb.
Proof.
  intros farith order OP lay h s q LO NL H HF U. apply (C94_without_alter farith order OP lay h s q LO H HF) in U as (w & asg & k & p & a & r & m & _ & _ & _ & _ & _ & [f t ls G1 G2 G3 _ _ _]).
  rewrite (NL _ _ _ G1 G3) in G2. discriminate G2.
Qed.
Print Assumptions C94_safe_partial.

(** the table of the examples has no nullable list column; these statements append to its list and its string *)
Example C94_safe_example :
  let qs := [ins 1 10; RUpdate (at_key 1) [mk_as f_l AAdd (LUInt 5); mk_as f_s AAssign (LStr f_s); mk_as f_s AAdd (LStr f_n)]; RSelect (at_key 1) None] in
  (forall c f ls, aget bseq c (lo_fields ex_lay) = Some f -> f_layers f = TsList :: ls -> f_null f = false) /\
  Forall (fun e => dml_ok (fst e)) (snd (rrun (mst_new ex_lay) qs)) /\
  map snd (snd (rrun (mst_new ex_lay) qs)) = [RoOk; RoOk; RoRow [CQw QU64 1; CQw QU8 10; CStr (f_s ++ f_n); CList [CQw QU8 1; CQw QU64 5]]].
Proof.
  cbv zeta. split; [|split].
  - intros c f ls G L. apply (aget_in _ bseq_eq) in G. cbn in G. repeat (destruct G as [G|G]; [injection G as <- <-; cbn in *; congruence|]). contradiction.
  - apply dml_okb_ok. vm_compute. reflexivity.
  - vm_compute. reflexivity.
Qed.

(** ** The ways in *)

Definition nl_lay : layout :=
  mk_layout 7 f_id (qsel_tsel QU64) [(f_id, mk_field false [qsel_tsel QU64]); (f_l, mk_field true [TsList; TsStr])].
Lemma nl_lay_ok : lay_ok nl_lay.
Proof.
  split; [|split].
  - cbn. repeat constructor; cbn; intros H; repeat (destruct H as [H|H]; [discriminate H|]); contradiction.
  - repeat constructor; discriminate.
  - eexists. split; [reflexivity|]. split; reflexivity.
Qed.
(** [create model t (primary id: uint64, null l: list {type: string})]; [insert into t (1, null)]; [update t set l += "s" where id = 1] *)
Theorem C94_null_list_refuted : exists s, rhist noarith idorder (mst_new nl_lay) [(RInsert (InsTuple [CQw QU64 1; CNull]), RoOk)] s /\
  Forall (fun e => dml_ok (fst e)) [(RInsert (InsTuple [CQw QU64 1; CNull]), RoOk)] /\
  snd (rstep noarith idorder s (RUpdate (at_key 1) [mk_as f_l AAdd (LStr f_s)])) = RoUb.
Proof.
  pose (qs := [RInsert (InsTuple [CQw QU64 1; CNull])]).
  assert (U : Forall (fun e => snd e <> RoUb) (snd (rrun (mst_new nl_lay) qs))) by (vm_compute; no_ub).
  pose proof (rrun_hist qs (mst_new nl_lay) U) as R. exists (fst (rrun (mst_new nl_lay) qs)). split; [exact R|].
  split; [apply dml_okb_ok; vm_compute; reflexivity|]. vm_compute. reflexivity.
Qed.
Print Assumptions C94_null_list_refuted.

(** A list column added to a table with rows: the rows get nulls when they are first looked at (all but the first column added, C22);
    declaring the column not nullable does not help. *)
Theorem C94_added_list_refuted : exists s h add1 add2,
  h = [(ins 1 10, RoOk); (add1, RoOk); (add2, RoOk); (RSelect (at_key 1) (Some [f_n]), RoRow [CQw QU8 10])] /\
  rhist noarith idorder (mst_new ex_lay) h s /\ Forall (fun e => stmt_ok (fst e)) h /\
  aget bseq (bstr "y"%string) (lo_fields (m_lay s)) = Some (mk_field false [TsList; TsStr]) /\
  snd (rstep noarith idorder s (RUpdate (at_key 1) [mk_as (bstr "y"%string) AAdd (LStr f_s)])) = RoUb.
Proof.
  pose (add1 := RAlter (AkAdd [mk_ef (bstr "x"%string) [mk_ls (bstr "uint8"%string) []] []]) true).
  pose (add2 := RAlter (AkAdd [mk_ef (bstr "y"%string) [mk_ls (bstr "string"%string) []; mk_ls (bstr "list"%string) []] []]) true).
  pose (qs := [ins 1 10; add1; add2; RSelect (at_key 1) (Some [f_n])]).
  assert (U : Forall (fun e => snd e <> RoUb) (snd (rrun (mst_new ex_lay) qs))) by (vm_compute; no_ub).
  pose proof (rrun_hist qs (mst_new ex_lay) U) as R. exists (fst (rrun (mst_new ex_lay) qs)), (snd (rrun (mst_new ex_lay) qs)), add1, add2.
  split; [vm_compute; reflexivity|]. split; [exact R|]. split; [apply stmt_okb_ok; vm_compute; reflexivity|]. vm_compute. split; reflexivity.
Qed.
Print Assumptions C94_added_list_refuted.

(** An integer column removed and declared again as a string: the integer that reappears (C22) is read as the address and length of a string. *)
Theorem C94_integer_as_string_refuted : exists s h add,
  h = [(ins 1 10, RoOk); (RAlter (AkRemove [f_n]) true, RoOk); (add, RoOk)] /\
  rhist noarith idorder (mst_new ex_lay) h s /\ Forall (fun e => stmt_ok (fst e)) h /\
  aget bseq f_n (lo_fields (m_lay s)) = Some (mk_field true [TsStr]) /\ option_map (aget bseq f_n) (rows_of s (PkUInt 1)) = Some (Some (CQw QU8 10)) /\
  snd (rstep noarith idorder s (RUpdate (at_key 1) [mk_as f_n AAdd (LStr f_s)])) = RoUb.
Proof.
  pose (add := RAlter (AkAdd [mk_ef f_n [mk_ls (bstr "string"%string) []] [(bstr "nullable"%string, DData (CBool true))]]) true).
  pose (qs := [ins 1 10; RAlter (AkRemove [f_n]) true; add]).
  assert (U : Forall (fun e => snd e <> RoUb) (snd (rrun (mst_new ex_lay) qs))) by (vm_compute; no_ub).
  pose proof (rrun_hist qs (mst_new ex_lay) U) as R. exists (fst (rrun (mst_new ex_lay) qs)), (snd (rrun (mst_new ex_lay) qs)), add.
  split; [vm_compute; reflexivity|]. split; [exact R|]. split; [apply stmt_okb_ok; vm_compute; reflexivity|]. vm_compute. split; [|split]; reflexivity.
Qed.
Print Assumptions C94_integer_as_string_refuted.
