(** The DML parsers: C46 (a statement is accepted exactly as it is written). *)
From Coq Require Import Strings.String List NArith Bool Arith Lia.
From Verif Require Import Bytes DataModel RowModel LexModel ParseModel ParseSpec ParseProofs ParseSel ParseIns.
Import ListNotations.

(** C46. DELETE: accepted exactly when the tokens are a DELETE statement of this model and these
    conditions, but for up to three AND at its end. *)
Theorem C46_delete cs ts e w : delete_of cs ts = POk (mk_del e w) <->
  exists u k, ts = u ++ repeat (kmis KmAnd) k /\ k <= 3 /\ wf_delete cs u e w.
Proof. apply (delete_iff cs ts (mk_del e w)). Qed.

(** C46. UPDATE, the same. *)
Theorem C46_update cs ts e l w : update_of cs ts = POk (mk_upd e l w) <->
  exists u k, ts = u ++ repeat (kmis KmAnd) k /\ k <= 3 /\ wf_update cs u e l w.
Proof. apply (update_iff cs ts (mk_upd e l w)). Qed.

(** C46. SELECT: the same, but a comma may follow the fields, and without WHERE the model's name has to
    be written in full. *)
Theorem C46_select cs ts e f w : select_of cs ts = POk (mk_sel e f w) <->
  exists F en, loose_fields f F /\ fields_ok f /\ names cs en e /\
    ((w = nil /\ length en = 3 /\ ts = F ++ kmis KmFrom :: en) \/
     (where_ok w /\ exists k, k <= 3 /\
        ts = F ++ kmis KmFrom :: en ++ kmis KmWhere :: where_toks w ++ repeat (kmis KmAnd) k)).
Proof. apply select_iff. Qed.

(** C46. SELECT ALL. *)
Theorem C46_select_all cs ts e f n : select_all_of cs ts = POk (mk_sela e f n) <->
  exists F en, loose_fields f F /\ fields_ok f /\ names cs en e /\
    ts = F ++ kmis KmFrom :: en ++ [kmis KmLimit; TLit (LUInt n)].
Proof. apply select_all_iff. Qed.

(** C46. INSERT: accepted exactly when the tokens are an INSERT statement of this model and this data
    with at least five tokens; or when they are one in which a comma stands for the last bracket. *)
Theorem C46_insert ut ub nw cs ts e d : insert_of ut ub nw cs ts = POk (mk_ins e d) <->
  5 <= length ts /\
  (wf_insert ut ub nw cs ts e d \/
   ((d <> InsTuple nil /\ d <> InsMap nil) /\
    exists u, ts = u ++ [TSym SComma] /\ wf_insert ut ub nw cs (u ++ [close_of d]) e d)).
Proof. apply insert_iff. Qed.

(** C46. A statement written as specified is accepted, with the entity, fields, assignments and
    conditions written. *)
Theorem C46_written_partial :
  (forall cs ts e w, wf_delete cs ts e w -> delete_of cs ts = POk (mk_del e w)) /\
  (forall cs ts e l w, wf_update cs ts e l w -> update_of cs ts = POk (mk_upd e l w)) /\
  (forall cs ts e f w, wf_select cs ts e f w -> w <> nil -> select_of cs ts = POk (mk_sel e f w)) /\
  (forall cs ts e f n, wf_select_all cs ts e f n -> select_all_of cs ts = POk (mk_sela e f n)) /\
  (forall ut ub nw cs ts e d, wf_insert ut ub nw cs ts e d -> 5 <= length ts ->
     insert_of ut ub nw cs ts = POk (mk_ins e d)).
Proof.
  repeat split.
  - intros cs ts e w H. apply C46_delete. exists ts, 0. rewrite app_nil_r. repeat split; [lia | exact H].
  - intros cs ts e l w H. apply C46_update. exists ts, 0. rewrite app_nil_r. repeat split; [lia | exact H].
  - intros cs ts e f w H NW. apply C46_select. destruct H as [en e f N FO|en e f w N FO WO]; [congruence|].
    exists (field_toks f), en. split; [left; reflexivity|]. split; [exact FO|]. split; [exact N|]. right.
    split; [exact WO|]. exists 0. split; [lia|]. cbn [repeat]. rewrite app_nil_r. reflexivity.
  - intros cs ts e f n H. apply C46_select_all. destruct H as [en e f n N FO].
    exists (field_toks f), en. split; [left; reflexivity|]. auto.
  - intros ut ub nw cs ts e d H L. apply C46_insert. auto.
Qed.

(** C46. So a statement means one thing: the tokens determine entity, fields, assignments, conditions
    and data. *)
Theorem C46_one_meaning :
  (forall cs ts e1 w1 e2 w2, wf_delete cs ts e1 w1 -> wf_delete cs ts e2 w2 -> e1 = e2 /\ w1 = w2) /\
  (forall cs ts e1 l1 w1 e2 l2 w2, wf_update cs ts e1 l1 w1 -> wf_update cs ts e2 l2 w2 ->
     e1 = e2 /\ l1 = l2 /\ w1 = w2) /\
  (forall ut ub nw cs ts e1 d1 e2 d2, 5 <= length ts -> wf_insert ut ub nw cs ts e1 d1 ->
     wf_insert ut ub nw cs ts e2 d2 -> e1 = e2 /\ d1 = d2).
Proof.
  destruct C46_written_partial as (D & U & _ & _ & I). repeat split.
  - specialize (D _ _ _ _ H) as A. specialize (D _ _ _ _ H0). congruence.
  - specialize (D _ _ _ _ H) as A. specialize (D _ _ _ _ H0). congruence.
  - specialize (U _ _ _ _ _ H) as A. specialize (U _ _ _ _ _ H0). congruence.
  - specialize (U _ _ _ _ _ H) as A. specialize (U _ _ _ _ _ H0). congruence.
  - specialize (U _ _ _ _ _ H) as A. specialize (U _ _ _ _ _ H0). congruence.
  - specialize (I _ _ _ _ _ _ _ H0 H) as A. specialize (I _ _ _ _ _ _ _ H1 H). congruence.
  - specialize (I _ _ _ _ _ _ _ H0 H) as A. specialize (I _ _ _ _ _ _ _ H1 H). congruence.
Qed.

(** C46. DELETE and UPDATE answer a node or an error for every token sequence: they never read outside
    the statement. *)
Theorem C46_delete_update_inside cs ts :
  ((exists d, delete_of cs ts = POk d) \/ (exists e, delete_of cs ts = PErr e)) /\
  ((exists d, update_of cs ts = POk d) \/ (exists e, update_of cs ts = PErr e)).
Proof. split; [apply delete_sound | apply update_sound]. Qed.

(** C46. SELECT reads outside the statement (a panic) exactly when two or three tokens follow the
    fields, in particular for every SELECT of a model of the current space without WHERE; otherwise it
    answers. *)
Theorem C46_select_outside cs ts : select_of cs ts = PPanic <->
  exists f r, fields_ok f /\ fields_then f ts r /\ 2 <= length r <= 3.
Proof. apply select_panic_iff. Qed.
Theorem C46_select_current_space cs f b : fields_ok f ->
  select_of cs (field_toks f ++ [kmis KmFrom; TId b]) = PPanic.
Proof.
  intros FO. apply C46_select_outside. exists f, [kmis KmFrom; TId b]. split; [exact FO|]. split; [|cbn; lia].
  destruct f as [l|]; [|reflexivity]. split; [unfold fields_ok in FO; congruence|]. left. split; [reflexivity|]. eauto.
Qed.
Theorem C46_select_else_answers cs ts : select_of cs ts <> PPanic ->
  (exists d, select_of cs ts = POk d) \/ (exists e, select_of cs ts = PErr e).
Proof. intros N. destruct (select_class cs ts) as [S|[S _]]; [exact S | congruence]. Qed.

(** C46. SELECT ALL takes the value of a token that has none exactly when the token after LIMIT is not
    a literal; otherwise it answers. *)
Theorem C46_select_all_undefined cs ts : select_all_of cs ts = PUb <->
  exists f F en e t r, loose_fields f F /\ fields_ok f /\ names cs en e /\
     ts = F ++ kmis KmFrom :: en ++ kmis KmLimit :: t :: r /\ (forall l, t <> TLit l).
Proof.
  rewrite select_all_ub_iff. split; intros (f & F & en & e & t & r & A & B & C & D & X);
    exists f, F, en, e, t, r; repeat split; auto.
  - intros l ->. discriminate X.
  - destruct t; try reflexivity. exfalso. eapply X. reflexivity.
Qed.
Theorem C46_select_all_else_answers cs ts : select_all_of cs ts <> PUb ->
  (exists d, select_all_of cs ts = POk d) \/ (exists e, select_all_of cs ts = PErr e).
Proof. intros N. destruct (select_all_class cs ts) as [S|[S _]]; [exact S | congruence]. Qed.

(** C46. INSERT answers unless the statement ends with an opening square bracket. *)
Theorem C46_insert_inside ut ub nw cs ts :
  (exists d, insert_of ut ub nw cs ts = POk d) \/ (exists e, insert_of ut ub nw cs ts = PErr e) \/
  (insert_of ut ub nw cs ts = PPanic /\ exists u, ts = u ++ [TSym SOpenSq]).
Proof. destruct (insert_class ut ub nw cs ts) as [[S|S]|S]; auto. Qed.

(* ------------------------------------------------------------------ *)
(** * The full statement is false of the code *)

Definition zt (n : nat) : bytes := nil.
Definition zn (n : nat) : N := 0%N.
Definition s_m : list token := [TId (bstr "s"%string); TSym SPeriod; TId (bstr "m"%string)].
Definition ka := bstr "a"%string.
Definition kb := bstr "b"%string.
Definition one := TLit (LUInt 1).
Definition a_is_1 : list token := [TId ka; TSym SAssign; one].
Definition ent := (bstr "s"%string, bstr "m"%string).

(** [DELETE FROM s.m WHERE a = 1 AND]: a missing condition is not noticed *)
Theorem C46_missing_condition_refuted : exists ts d, delete_of None ts = POk d /\
  ~ wf_delete None ts (de_entity d) (de_where d).
Proof.
  exists (kmis KmFrom :: s_m ++ kmis KmWhere :: a_is_1 ++ [kmis KmAnd]), (mk_del ent [(ka, (OpEq, LUInt 1))]).
  split; [vm_compute; reflexivity|]. intros W.
  inversion W as [en e w N WO E1 E2 E3]. subst e w.
  cbn in E1. inversion N as [a b E4 E5|a b E4 E5 E6]; subst en; [|discriminate E4].
  cbn in E1. discriminate E1.
Qed.
(** [INSERT INTO s.m(1,]: the closing bracket is missing *)
Theorem C46_missing_bracket_refuted : exists ts d, insert_of zt zt zn None ts = POk (mk_ins ent d) /\
  ~ wf_insert zt zt zn None ts ent d.
Proof.
  exists (kmis KmInto :: s_m ++ [TSym SOpenParen; one; TSym SComma]), (InsTuple [CQw QU64 1%N]).
  split; [vm_compute; reflexivity|]. intros W.
  inversion W as [en e d t N WD E1 E2 E3]. subst e d.
  inversion N as [a b E4 E5|a b E4 E5 E6]; subst en; [|discriminate E4].
  cbn in E1. injection E1 as _ _ Et. subst t. inversion WD as [|t0 l TV E6 E7| |].
  inversion TV as [t1 c RV E8 E9|t1 c t2 l2 RV TV2 E8 E9]; subst.
  - inversion RV as [|t3 c3 r3 LV]; subst. inversion LV.
  - inversion TV2.
Qed.
(** [SELECT a, FROM s.m]: a field is missing *)
Theorem C46_missing_field_refuted : exists ts d, select_of None ts = POk d /\
  ~ wf_select None ts (se_entity d) (se_fields d) (se_where d).
Proof.
  exists ([TId ka; TSym SComma; kmis KmFrom] ++ s_m), (mk_sel ent (Some [ka]) nil).
  split; [vm_compute; reflexivity|]. intros W. cbn in W. inversion W as [en e f N FO E1 E2 E3 E4|en e f w N FO WO E1 E2 E3 E4].
  - subst f. discriminate E1.
  - destruct WO as [WO _]. subst w. congruence.
Qed.
(** [SELECT * FROM m] with a current space: the parser panics *)
Theorem C46_select_panics_refuted : exists cs ts e, wf_select cs ts e None nil /\ select_of cs ts = PPanic.
Proof.
  exists (Some (bstr "s"%string)), [TSym SMul; kmis KmFrom; TId (bstr "m"%string)], ent.
  split; [|vm_compute; reflexivity].
  apply (wfs_all (Some (bstr "s"%string)) [TId (bstr "m"%string)] ent None); [apply names_short; reflexivity | discriminate].
Qed.
(** [INSERT INTO s.m([[]: the parser panics *)
Theorem C46_insert_panics_refuted : exists ts, insert_of zt zt zn None ts = PPanic.
Proof.
  exists (kmis KmInto :: s_m ++ [TSym SOpenParen; TSym SOpenSq; TSym SOpenSq]). vm_compute. reflexivity.
Qed.
(** [SELECT ALL * FROM s.m LIMIT x]: undefined behaviour *)
Theorem C46_select_all_undefined_refuted : exists ts, select_all_of None ts = PUb.
Proof. exists (TSym SMul :: kmis KmFrom :: s_m ++ [kmis KmLimit; TId ka]). vm_compute. reflexivity. Qed.
(** [INSERT INTO m()] in a current space is refused *)
Theorem C46_short_insert_refuted : exists cs ts e, wf_insert zt zt zn cs ts e (InsTuple nil) /\
  insert_of zt zt zn cs ts = PErr EEnd.
Proof.
  exists (Some (bstr "s"%string)), [kmis KmInto; TId (bstr "m"%string); TSym SOpenParen; TSym SCloseParen], ent.
  split; [|vm_compute; reflexivity].
  apply (wfi zt zt zn (Some (bstr "s"%string)) [TId (bstr "m"%string)] ent); [apply names_short; reflexivity | constructor].
Qed.
(** lists nested three deep may mix element types: the check looks one level down only *)
Theorem C46_deep_list_mixed : exists ts d, insert_of zt zt zn None ts = POk (mk_ins ent d) /\
  d = InsTuple [CList [CList [CList [CQw QU64 1%N]]; CList [CList [CStr ka]]]].
Proof.
  exists (kmis KmInto :: s_m ++ [TSym SOpenParen; TSym SOpenSq; TSym SOpenSq; TSym SOpenSq; one; TSym SCloseSq;
     TSym SCloseSq; TSym SComma; TSym SOpenSq; TSym SOpenSq; TLit (LStr ka); TSym SCloseSq; TSym SCloseSq;
     TSym SCloseSq; TSym SCloseParen]).
  eexists. split; [vm_compute; reflexivity | reflexivity].
Qed.

(* ------------------------------------------------------------------ *)
(** * Concrete cases *)

(** a DELETE with two conditions, as [wf_delete] has it *)
Example delete_case : wf_delete None (kmis KmFrom :: s_m ++ kmis KmWhere ::
    [TId ka; TSym SGt; TSym SAssign; one; kmis KmAnd; TId kb; TSym SNot; TSym SAssign; TLit (LStr ka)])
    ent [(ka, (OpGe, LUInt 1)); (kb, (OpNe, LStr ka))].
Proof.
  apply (wfd None s_m ent [(ka, (OpGe, LUInt 1)); (kb, (OpNe, LStr ka))]); [constructor|].
  split; [discriminate|]. repeat constructor; cbn; intuition discriminate.
Qed.
Example update_case : update_of None (s_m ++ kmis KmSet ::
    [TId ka; TSym SAdd; TSym SAssign; one; TSym SComma; TId kb; TSym SAssign; one; kmis KmWhere] ++ a_is_1) =
    POk (mk_upd ent [mk_as ka AAdd (LUInt 1); mk_as kb AAssign (LUInt 1)] [(ka, (OpEq, LUInt 1))]).
Proof. vm_compute. reflexivity. Qed.
Example select_case : select_of (Some (bstr "s"%string)) ([TId ka; TSym SComma; TId kb; kmis KmFrom; TId (bstr "m"%string); kmis KmWhere] ++ a_is_1) =
    POk (mk_sel ent (Some [ka; kb]) [(ka, (OpEq, LUInt 1))]).
Proof. vm_compute. reflexivity. Qed.
Example select_all_case : select_all_of None (TSym SMul :: kmis KmFrom :: s_m ++ [kmis KmLimit; TLit (LUInt 10)]) =
    POk (mk_sela ent None 10%N).
Proof. vm_compute. reflexivity. Qed.
Example insert_case : insert_of zt zt zn None (kmis KmInto :: s_m ++ [TSym SOpenBrace; TId ka; TSym SColon; one; TSym SComma;
    TId kb; TSym SColon; TSym SOpenSq; TLit (LStr ka); TSym SComma; TSym SAt; TId (bstr "uuidstr"%string); TSym SOpenParen;
    TSym SCloseParen; TSym SCloseSq; TSym SCloseBrace]) =
    POk (mk_ins ent (InsMap [(ka, CQw QU64 1%N); (kb, CList [CStr ka; CStr nil])])).
Proof. vm_compute. reflexivity. Qed.
(** a leftover token is refused *)
Example leftover : select_of None ([TSym SMul; kmis KmFrom] ++ s_m ++ [one]) = PErr ESyntax.
Proof. vm_compute. reflexivity. Qed.

Print Assumptions C46_delete.
Print Assumptions C46_update.
Print Assumptions C46_select.
Print Assumptions C46_select_all.
Print Assumptions C46_insert.
Print Assumptions C46_written_partial.
Print Assumptions C46_one_meaning.
Print Assumptions C46_delete_update_inside.
Print Assumptions C46_select_outside.
Print Assumptions C46_select_current_space.
Print Assumptions C46_select_else_answers.
Print Assumptions C46_select_all_undefined.
Print Assumptions C46_select_all_else_answers.
Print Assumptions C46_insert_inside.
Print Assumptions C46_missing_condition_refuted.
Print Assumptions C46_missing_bracket_refuted.
Print Assumptions C46_missing_field_refuted.
Print Assumptions C46_select_panics_refuted.
Print Assumptions C46_insert_panics_refuted.
Print Assumptions C46_select_all_undefined_refuted.
Print Assumptions C46_short_insert_refuted.
Print Assumptions C46_deep_list_mixed.
