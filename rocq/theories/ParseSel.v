(** Proofs about the DML parsers, part 2: SELECT, SELECT ALL. *)
From Coq Require Import Strings.String List NArith Bool Arith Lia.
From Verif Require Import Bytes DataModel RowModel LexModel ParseModel ParseSpec ParseProofs.
Import ListNotations.
Local Notation ands k := (repeat (kmis KmAnd) k).

(** the field list stops here: no identifier follows *)
Definition stops (r : list token) : Prop := match r with TId _ :: _ => False | _ => True end.
(** the field list as the parser takes it: a comma may follow the last field *)
Definition loose_fields (f : option (list bytes)) (F : list token) : Prop :=
  F = field_toks f \/ (f <> None /\ F = field_toks f ++ [TSym SComma]).
(** the fields, and what follows them *)
Definition fields_then (f : option (list bytes)) (ts r : list token) : Prop :=
  match f with
  | None => ts = TSym SMul :: r
  | Some l =>
      l <> nil /\
      ((ts = field_toks f ++ r /\ exists r', r = kmis KmFrom :: r') \/
       (ts = field_toks f ++ TSym SComma :: r /\ stops r))
  end.

Lemma fields_cons k l : field_toks (Some (k :: l)) =
  TId k :: match l with nil => nil | _ => TSym SComma :: field_toks (Some l) end.
Proof. destruct l; reflexivity. Qed.

Lemma fields_loop_dead n fs s : 0 < n -> okay s = false -> fields_loop n fs s = POk (fs, s).
Proof.
  destruct n; [lia|]. intros _ O. cbn [fields_loop]. unfold going. rewrite O.
  destruct (rest s); reflexivity.
Qed.

Lemma fields_loop_inv n : forall fs s fs' s', fields_loop n fs s = POk (fs', s') -> okay s' = true ->
  okay s = true /\ exists l, fs' = fs ++ l /\
    ((l = nil /\ s' = s /\ stops (rest s)) \/ fields_then (Some l) (rest s) (rest s')).
Proof.
  induction n as [|n IH]; intros fs s fs' s' H O; [discriminate H|]. cbn [fields_loop] in H.
  destruct (going s) eqn:G; cbn [negb] in H.
  2:{ injection H as <- <-. split; [exact O|]. exists nil. rewrite app_nil_r. split; [reflexivity|].
      left. unfold going in G. rewrite O in G. destruct (rest s); [cbn; auto | discriminate G]. }
  assert (OS : okay s = true) by (unfold going in G; destruct (rest s); [discriminate G | exact G]).
  split; [exact OS|].
  destruct (rest s) as [|t r] eqn:RS; [unfold going in G; rewrite RS in G; discriminate G|].
  assert (STOP : stops (t :: r) -> POk (fs, s) = POk (fs', s') -> exists l, fs' = fs ++ l /\
    ((l = nil /\ s' = s /\ stops (t :: r)) \/ fields_then (Some l) (t :: r) (rest s'))).
  { intros ST E. injection E as <- <-. exists nil. rewrite app_nil_r. auto. }
  destruct t as [| |k|]; [apply STOP; [exact I | exact H]| apply STOP; [exact I | exact H]| |apply STOP; [exact I | exact H]].
  clear STOP. rewrite OS in H.
  destruct (next_is (is_sym SComma) (mk_pst r true)) eqn:C.
  - apply next_sym in C. destruct C as (r' & C). cbn [rest] in C. subst r.
    cbn [orb ahead_if] in H. rewrite need_mk, ahead1 in H. cbn [andb] in H.
    apply IH in H; [|exact O]. destruct H as (_ & l & -> & D). cbn [rest] in D.
    exists (k :: l). rewrite <- app_assoc. split; [reflexivity|]. right.
    destruct D as [(-> & -> & ST)|(NE & D)].
    + split; [discriminate|]. right. split; [reflexivity | exact ST].
    + split; [discriminate|]. rewrite fields_cons. destruct l as [|b l]; [congruence|].
      destruct D as [(E & r'' & R)|(E & ST)]; rewrite E.
      * left. split; [reflexivity | eauto].
      * right. split; [reflexivity | exact ST].
  - destruct (next_is (is_misc KmFrom) (mk_pst r true)) eqn:F.
    + apply next_misc in F. destruct F as (r' & F). cbn [rest] in F. subst r.
      cbn [orb ahead_if] in H. rewrite need_mk in H. cbn [andb] in H.
      apply IH in H; [|exact O]. destruct H as (_ & l & -> & D). cbn [rest] in D.
      destruct D as [(-> & -> & ST)|(NE & D)].
      * exists [k]. split; [rewrite app_nil_r; reflexivity|]. right. split; [discriminate|]. left.
        split; [reflexivity | eexists; reflexivity].
      * exfalso. destruct l as [|b l]; [congruence|]. rewrite fields_cons in D.
        destruct D as [(E & _)|(E & _)]; cbn in E; discriminate E.
    + exfalso. cbn [orb ahead_if] in H. destruct n; [discriminate H|].
      rewrite fields_loop_dead in H; [|lia|reflexivity]. injection H as <- <-. discriminate O.
Qed.

Lemma fields_loop_ok l : forall n fs r ts, fields_then (Some l) ts r -> length ts < n ->
  fields_loop n fs (mk_pst ts true) = POk (fs ++ l, mk_pst r true).
Proof.
  induction l as [|k l IH]; intros n fs r ts [NE D] L; [congruence|].
  destruct n as [|n]; [lia|]. rewrite fields_cons in D.
  destruct l as [|b l].
  - destruct D as [(-> & r' & ->)|(-> & ST)].
    + cbn [app length] in *. destruct n; [lia|]. reflexivity.
    + cbn [app length] in *. destruct n; [lia|].
      change (fields_loop (S n) (fs ++ [k]) (mk_pst r true) = POk (fs ++ [k], mk_pst r true)).
      cbn [fields_loop]. destruct r as [|t r]; [reflexivity|]. destruct t; try reflexivity. destruct ST.
  - assert (D' : exists ts', ts = TId k :: TSym SComma :: ts' /\ fields_then (Some (b :: l)) ts' r).
    { destruct D as [(-> & r' & ->)|(-> & ST)]; (eexists; split; [reflexivity|]); (split; [discriminate|]).
      - left. split; [reflexivity | eexists; reflexivity].
      - right. split; [reflexivity | exact ST]. }
    destruct D' as (ts' & -> & D').
    change (fields_loop n (fs ++ [k]) (mk_pst ts' true) = POk (fs ++ k :: b :: l, mk_pst r true)).
    rewrite (IH n _ r ts' D').
    + rewrite <- app_assoc. reflexivity.
    + cbn [length] in L. lia.
Qed.
Lemma fields_loop_total n : forall fs s, length (rest s) < n -> exists fs' s', fields_loop n fs s = POk (fs', s').
Proof.
  induction n as [|n IH]; intros fs s L; [lia|]. cbn [fields_loop].
  destruct (going s); cbn [negb]; [|eauto]. destruct (rest s) as [|t r]; [eauto|].
  destruct t as [| |k|]; eauto. cbn [length] in L. apply IH.
  destruct (next_is (is_sym SComma) _); cbn [ahead_if ahead need rest]; [rewrite skipn_length|]; lia.
Qed.

Lemma parse_fields_inv s w fs s' : parse_fields s = POk (w, fs, s') -> okay s' = true ->
  okay s = true /\ fields_ok (sel_fields w fs) /\ fields_then (sel_fields w fs) (rest s) (rest s').
Proof.
  unfold parse_fields. intros H O. apply pbind_ok in H. destruct H as (b & C & H).
  apply cur_is_ok in C. destruct C as (t & r & RS & B). destruct b.
  - symmetry in B. apply is_sym_eq in B. subst t. injection H as <- <- <-. cbn in O.
    split; [exact O|]. split; [discriminate|]. cbn. rewrite RS. reflexivity.
  - apply pbind_ok in H. destruct H as ([fs1 s1] & F & H). cbn beta iota in H. injection H as <- <- <-.
    apply need_ok in O. destruct O as [O NE].
    apply fields_loop_inv in F; [|exact O]. destruct F as (OS & l & E & D). cbn [app] in E. subst fs1.
    split; [exact OS|]. destruct l as [|k l]; [discriminate NE|]. cbn [sel_fields need rest].
    split; [discriminate|]. destruct D as [(E & _)|D]; [discriminate E | exact D].
Qed.
Lemma parse_fields_ok f ts r : fields_ok f -> fields_then f ts r ->
  exists w fs, sel_fields w fs = f /\ parse_fields (mk_pst ts true) = POk (w, fs, mk_pst r true).
Proof.
  intros FO D. destruct f as [l|].
  - exists false, l. split; [reflexivity|]. unfold parse_fields.
    assert (X : exists k ts', ts = TId k :: ts').
    { destruct D as [NE D]. destruct l as [|k l]; [congruence|]. rewrite fields_cons in D.
      destruct D as [(-> & _)|(-> & _)]; cbn; eauto. }
    destruct X as (k & ts' & E). assert (CI : cur_is (is_sym SMul) (mk_pst ts true) = POk false) by (rewrite E; reflexivity).
    rewrite CI. cbn [pbind]. unfold remaining. cbn [rest]. rewrite (fields_loop_ok l _ nil r ts D) by lia. cbn [pbind app].
    rewrite need_mk. destruct D as [NE _]. destruct l; [congruence | reflexivity].
  - exists true, nil. split; [reflexivity|]. cbn in D. subst ts. reflexivity.
Qed.
Lemma parse_fields_total s : rest s <> nil -> exists w fs s', parse_fields s = POk (w, fs, s').
Proof.
  intros N. unfold parse_fields, cur_is. destruct (rest s) as [|t r] eqn:R; [congruence|].
  cbn [pbind]. destruct (is_sym SMul t); [eauto|].
  destruct (fields_loop_total (S (remaining s)) nil s) as (fs & s' & F); [unfold remaining; lia|].
  rewrite F. cbn [pbind]. eauto.
Qed.

(** what the parser takes as the fields of a complete statement *)
Lemma fields_then_from f ts r : fields_then f ts (kmis KmFrom :: r) <->
  fields_ok f /\ exists F, loose_fields f F /\ ts = F ++ kmis KmFrom :: r.
Proof.
  unfold fields_then, loose_fields, fields_ok. destruct f as [l|].
  - split.
    + intros (NE & [(-> & _)|(-> & _)]).
      * split; [congruence|]. eexists. split; [left; reflexivity | reflexivity].
      * split; [congruence|]. eexists. split; [right; split; [discriminate | reflexivity]|].
        rewrite <- app_assoc. reflexivity.
    + intros (NE & F & [->|[_ ->]] & ->); (split; [congruence|]).
      * left. eauto.
      * right. rewrite <- app_assoc. split; [reflexivity | exact I].
  - split.
    + intros ->. split; [discriminate|]. eexists. split; [left; reflexivity | reflexivity].
    + intros (_ & F & [->|[N _]] & ->); [reflexivity | congruence].
Qed.

Lemma fields_then_len f ts r : fields_then f ts r -> length r < length ts.
Proof.
  unfold fields_then. destruct f as [[|k l]|].
  - intros [N _]. congruence.
  - rewrite fields_cons. intros (_ & [(-> & _)|(-> & _)]); cbn [app length]; rewrite app_length; cbn; lia.
  - intros ->. cbn. lia.
Qed.

Lemma select_iff cs ts e f w : select_of cs ts = POk (mk_sel e f w) <->
  exists F en, loose_fields f F /\ fields_ok f /\ names cs en e /\
    ((w = nil /\ length en = 3 /\ ts = F ++ kmis KmFrom :: en) \/
     (where_ok w /\ exists k, k <= 3 /\
        ts = F ++ kmis KmFrom :: en ++ kmis KmWhere :: where_toks w ++ ands k)).
Proof.
  split.
  - intros H. apply hardened_ok in H. destruct H as (s & H & R). unfold parse_select in H.
    destruct (remaining (start ts) <? 3); [discriminate H|].
    apply pbind_ok in H. destruct H as ([[wc fs] s1] & PF & H). cbn beta iota in H.
    destruct ((remaining s1 <? 2) || negb (okay s1)) eqn:B; [discriminate H|].
    apply orb_false_iff in B. destruct B as [_ O1]. apply negb_false_iff in O1.
    apply parse_fields_inv in PF; [|exact O1]. destruct PF as (_ & FO & FT). cbn [start rest] in FT.
    apply pbind_ok in H. destruct H as (b & C & H). cbn zeta in H.
    apply pbind_ok in H. destruct H as ([en s2] & E & H). cbn beta iota in H.
    apply pbind_ok in H. destruct H as ([c s3] & W & H). cbn beta iota in H.
    apply finish_ok in H. destruct H as (O & -> & e' & -> & X). injection X as <- -> <-.
    apply entity_inv in E. destruct E as (L & OE & tn & N & RE).
    apply cur_is_ok in C. destruct C as (t & r & RT & P).
    assert (FIN : b = true -> exists F, loose_fields (sel_fields wc fs) F /\ ts = F ++ kmis KmFrom :: tn ++ rest s2).
    { intros ->. symmetry in P. apply is_misc_eq in P. subst t. rewrite RT in FT.
      apply fields_then_from in FT. destruct FT as (_ & F & LF & ->).
      cbn [ahead need rest] in RE. rewrite RT in RE. cbn [skipn] in RE. rewrite RE. eauto. }
    destruct (next_is (is_misc KmWhere) s2) eqn:NW.
    + apply pbind_ok in W. destruct W as ([c1 s4] & W & X). cbn beta iota in X. injection X as <- <-.
      destruct (parse_where_inv _ _ _ W O R) as (O3 & WO & k & RW & K).
      cbn [ahead okay] in O3. rewrite OE in O3. cbn [ahead okay] in O3. apply need_ok in O3.
      destruct O3 as [_ B]. destruct (FIN B) as (F & LF & ->).
      apply next_misc in NW. destruct NW as (r2 & R2). cbn [ahead rest] in RW. rewrite R2 in *.
      cbn [skipn] in RW. subst r2. exists F, tn. repeat (split; [assumption|]). right. eauto.
    + injection W as <- <-. rewrite OE in O. cbn [ahead okay] in O. apply need_ok in O. destruct O as [_ B].
      destruct (FIN B) as (F & LF & ->). rewrite R in *. rewrite app_nil_r in *.
      exists F, tn. repeat (split; [assumption|]). left. split; [reflexivity|]. split; [|reflexivity].
      rewrite RE in L. destruct N; cbn in *; lia.
  - intros (F & en & LF & FO & N & D). unfold select_of, parse_select, start.
    set (tail := match w with nil => en | _ => skipn (length F + 1) ts end).
    assert (TS : ts = F ++ kmis KmFrom :: tail /\ 3 <= length tail /\
      ((w = nil /\ tail = en ++ nil) \/ (where_ok w /\ exists k, k <= 3 /\ tail = en ++ kmis KmWhere :: where_toks w ++ ands k))).
    { subst tail. destruct D as [(-> & L & ->)|(WO & k & K & ->)].
      - split; [reflexivity|]. split; [lia|]. left. rewrite app_nil_r. auto.
      - assert (T : skipn (length F + 1) (F ++ kmis KmFrom :: en ++ kmis KmWhere :: where_toks w ++ ands k) =
          en ++ kmis KmWhere :: where_toks w ++ ands k).
        { rewrite skipn_app, skipn_all2 by lia. replace (length F + 1 - length F) with 1 by lia. reflexivity. }
        pose proof WO as [WN _]. pose proof (where_len w WN) as WL. destruct w; [congruence|].
        rewrite T. split; [reflexivity|]. split.
        + rewrite app_length. cbn [length]. rewrite app_length. lia.
        + right. split; [exact WO|]. eauto. }
    clear D. clearbody tail. destruct TS as (-> & LT & D').
    assert (FT : fields_then f (F ++ kmis KmFrom :: tail) (kmis KmFrom :: tail)).
    { apply fields_then_from. split; [exact FO|]. eauto. }
    pose proof (fields_then_len _ _ _ FT) as FL. cbn [length] in FL. unfold remaining at 1. cbn [rest].
    replace (length (F ++ kmis KmFrom :: tail) <? 3) with false by (symmetry; apply Nat.ltb_ge; lia).
    destruct (parse_fields_ok f _ _ FO FT) as (wc & fs & SF & ->). cbn [pbind]. unfold remaining.
    cbn [rest okay negb]. replace (length (kmis KmFrom :: tail) <? 2) with false by (symmetry; apply Nat.ltb_ge; cbn; lia).
    cbn [orb]. st. replace (is_misc KmFrom (kmis KmFrom)) with true by reflexivity. st.
    destruct D' as [(-> & ->)|(WO & k & K & ->)].
    + rewrite (entity_ok cs en e); [|exact N|exact I|exact LT]. st. cbn [next_is rest]. st.
      unfold finish. cbn [okay hardened pbind rest]. rewrite SF. reflexivity.
    + rewrite (entity_ok cs en e); [|exact N|reflexivity|exact LT]. st.
      cbn [next_is rest]. replace (is_misc KmWhere (kmis KmWhere)) with true by reflexivity. st.
      rewrite parse_where_ok by assumption. st. rewrite nonempty_ok by assumption.
      unfold finish. cbn [okay hardened pbind rest]. rewrite SF. reflexivity.
Qed.

Lemma need_false_dead b s : okay s = false -> okay (need b s) = false.
Proof. cbn. intros ->. reflexivity. Qed.

Lemma select_class cs ts :
  sound (select_of cs ts) \/
  (select_of cs ts = PPanic /\ exists f r, fields_ok f /\ fields_then f ts r /\ 2 <= length r <= 3).
Proof.
  unfold select_of, parse_select. destruct (remaining (start ts) <? 3) eqn:L.
  { left. right. cbn. eauto. }
  apply Nat.ltb_ge in L. unfold start, remaining in L. cbn [rest] in L.
  destruct (parse_fields_total (start ts)) as (w & fs & s1 & PF); [destruct ts; cbn in *; [lia|congruence]|].
  rewrite PF. cbn [pbind]. destruct ((remaining s1 <? 2) || negb (okay s1)) eqn:B.
  { left. right. cbn. eauto. }
  apply orb_false_iff in B. destruct B as [L1 O1]. apply negb_false_iff in O1. apply Nat.ltb_ge in L1.
  unfold remaining in L1. pose proof (parse_fields_inv _ _ _ _ PF O1) as (_ & FO & FT). cbn [start rest] in FT.
  unfold cur_is. destruct (rest s1) as [|t r] eqn:R1; [cbn in L1; lia|]. cbn [pbind].
  set (s2 := ahead 1 (need (is_misc KmFrom t) s1)).
  assert (R2 : rest s2 = r) by (subst s2; cbn [ahead need rest]; rewrite R1; reflexivity).
  destruct (le_lt_dec 3 (length r)) as [L2|L2].
  - left. apply hardened_sound. destruct (entity_total' cs s2) as (e & s3 & E & L3 & OE); [rewrite R2; exact L2|].
    rewrite E. cbn [pbind]. destruct (next_is (is_misc KmWhere) s3).
    + destruct (parse_where_total (ahead 1 s3)) as (c & s4 & W). rewrite W. cbn [pbind].
      apply finish_total. intros X. specialize (OE X). cbn. destruct (okay s4) eqn:O4; [|reflexivity].
      apply where_okay_inv in W; [|exact O4]. cbn in W. congruence.
    + cbn [pbind]. apply finish_total. exact OE.
  - right. assert (P : entity_buffered cs s2 = PPanic) by (apply entity_panic; rewrite R2; exact L2).
    rewrite P. split; [reflexivity|]. exists (sel_fields w fs), (t :: r). cbn [length] in *.
    repeat (split; [assumption|]). lia.
Qed.
Lemma select_panic_iff cs ts : select_of cs ts = PPanic <->
  exists f r, fields_ok f /\ fields_then f ts r /\ 2 <= length r <= 3.
Proof.
  split.
  - intros P. destruct (select_class cs ts) as [[[x S]|[x S]]|[_ S]]; [congruence|congruence|exact S].
  - intros (f & r & FO & FT & L). unfold select_of, parse_select, start, remaining at 1. cbn [rest].
    pose proof (fields_then_len _ _ _ FT).
    replace (length ts <? 3) with false by (symmetry; apply Nat.ltb_ge; lia).
    destruct (parse_fields_ok f _ _ FO FT) as (w & fs & _ & ->). cbn [pbind]. unfold remaining. cbn [rest okay negb].
    replace (length r <? 2) with false by (symmetry; apply Nat.ltb_ge; lia). cbn [orb].
    destruct r as [|t r]; [cbn in L; lia|]. st.
    match goal with |- context [entity_buffered cs ?s] => assert (P : entity_buffered cs s = PPanic) end.
    { apply entity_panic. cbn in *. lia. }
    rewrite P. reflexivity.
Qed.

(* ------------------------------------------------------------------ *)
(** * SELECT ALL *)

Lemma select_all_iff cs ts e f n : select_all_of cs ts = POk (mk_sela e f n) <->
  exists F en, loose_fields f F /\ fields_ok f /\ names cs en e /\
    ts = F ++ kmis KmFrom :: en ++ [kmis KmLimit; TLit (LUInt n)].
Proof.
  split.
  - intros H. apply hardened_ok in H. destruct H as (s & H & R). unfold parse_select_all in H.
    destruct (remaining (start ts) <? 5); [discriminate H|].
    apply pbind_ok in H. destruct H as ([[wc fs] s1] & PF & H). cbn beta iota in H.
    destruct (remaining s1 <? 4); [discriminate H|].
    apply pbind_ok in H. destruct H as (b & C & H). cbn zeta in H.
    apply pbind_ok in H. destruct H as ([en s2] & E & H). cbn beta iota zeta in H.
    destruct (okay (need (next_is (is_misc KmLimit) s2) s2)) eqn:ON.
    2:{ cbn [ahead_if] in H. rewrite need_false_dead in H by exact ON. discriminate H. }
    cbn [ahead_if] in H. apply need_ok in ON. destruct ON as [O2 NL].
    apply next_misc in NL. destruct NL as (r2 & R2).
    match type of H with (if okay ?s then _ else _) = _ => destruct (okay s) eqn:ON2 end; [|discriminate H].
    cbn [need ahead rest] in H. rewrite R2 in H. cbn [skipn] in H.
    destruct r2 as [|t2 r2]; [discriminate H|]. destruct t2 as [| | |l]; try discriminate H.
    destruct l; try discriminate H.
    apply finish_ok in H. destruct H as (_ & -> & e' & -> & X). injection X as <- -> <-. cbn [rest] in R. subst r2.
    apply entity_inv in E. destruct E as (L & OE & tn & N & RE).
    rewrite OE in O2. cbn [ahead okay] in O2. apply need_ok in O2. destruct O2 as [O1 ->].
    apply parse_fields_inv in PF; [|exact O1]. destruct PF as (_ & FO & FT). cbn [start rest] in FT.
    apply cur_is_ok in C. destruct C as (t & r & RT & P). symmetry in P. apply is_misc_eq in P. subst t.
    rewrite RT in FT. apply fields_then_from in FT. destruct FT as (_ & F & LF & ->).
    cbn [ahead need rest] in RE. rewrite RT in RE. cbn [skipn] in RE. subst r.
    exists F, tn. repeat (split; [assumption|]). rewrite R2. reflexivity.
  - intros (F & en & LF & FO & N & ->). unfold select_all_of, parse_select_all, start.
    set (tail := en ++ [kmis KmLimit; TLit (LUInt n)]).
    assert (FT : fields_then f (F ++ kmis KmFrom :: tail) (kmis KmFrom :: tail)).
    { apply fields_then_from. split; [exact FO|]. eauto. }
    assert (LT : 3 <= length tail) by (subst tail; rewrite app_length; destruct N; cbn; lia).
    pose proof (fields_then_len _ _ _ FT) as FL. cbn [length] in FL. unfold remaining at 1. cbn [rest].
    replace (length (F ++ kmis KmFrom :: tail) <? 5) with false by (symmetry; apply Nat.ltb_ge; lia).
    destruct (parse_fields_ok f _ _ FO FT) as (wc & fs & SF & ->). cbn [pbind]. unfold remaining.
    cbn [rest]. replace (length (kmis KmFrom :: tail) <? 4) with false by (symmetry; apply Nat.ltb_ge; cbn [length]; lia).
    st. replace (is_misc KmFrom (kmis KmFrom)) with true by reflexivity. st. subst tail.
    rewrite (entity_ok cs en e); [|exact N|reflexivity|exact LT]. st. cbn [next_is rest].
    replace (is_misc KmLimit (kmis KmLimit)) with true by reflexivity. st.
    unfold finish. cbn [okay hardened pbind rest]. rewrite SF. reflexivity.
Qed.

Lemma select_all_class cs ts :
  sound (select_all_of cs ts) \/
  (select_all_of cs ts = PUb /\ exists f F en e t r, loose_fields f F /\ fields_ok f /\ names cs en e /\
     ts = F ++ kmis KmFrom :: en ++ kmis KmLimit :: t :: r /\ is_lit t = false).
Proof.
  unfold select_all_of, parse_select_all. destruct (remaining (start ts) <? 5) eqn:L.
  { left. right. cbn. eauto. }
  apply Nat.ltb_ge in L. unfold start, remaining in L. cbn [rest] in L.
  destruct (parse_fields_total (start ts)) as (w & fs & s1 & PF); [destruct ts; cbn in *; [lia|congruence]|].
  rewrite PF. cbn [pbind]. destruct (remaining s1 <? 4) eqn:L1.
  { left. right. cbn. eauto. }
  apply Nat.ltb_ge in L1. unfold remaining in L1. unfold cur_is.
  destruct (rest s1) as [|t r] eqn:R1; [cbn in L1; lia|]. cbn [pbind].
  set (s2 := ahead 1 (need (is_misc KmFrom t) s1)).
  assert (R2 : rest s2 = r) by (subst s2; cbn [ahead need rest]; rewrite R1; reflexivity).
  destruct (entity_total' cs s2) as (e & s3 & E & L3 & OE); [rewrite R2; cbn in L1; lia|].
  rewrite E. cbn [pbind]. cbn zeta.
  destruct (okay (need (next_is (is_misc KmLimit) s3) s3)) eqn:ON.
  2:{ cbn [ahead_if]. rewrite need_false_dead by exact ON. left. right. cbn. eauto. }
  cbn [ahead_if]. apply need_ok in ON. destruct ON as [O3 NL].
  apply next_misc in NL. destruct NL as (r3 & R3).
  match goal with |- context [if okay ?s then _ else _] => destruct (okay s) eqn:ON2 end.
  2:{ left. right. cbn. eauto. }
  cbn [need ahead rest]. rewrite R3. cbn [skipn].
  destruct r3 as [|t3 r3].
  { exfalso. apply need_ok in ON2. destruct ON2 as [_ X]. cbn [need ahead rest] in X. rewrite R3 in X. discriminate X. }
  destruct (is_lit t3) eqn:IL.
  - left. apply hardened_sound. destruct t3 as [| | |l]; try discriminate IL.
    destruct l; try (right; eexists; reflexivity).
    apply finish_total. intros X. specialize (OE X). congruence.
  - right. split; [destruct t3; try reflexivity; discriminate IL|].
    destruct e as [e|]; [|specialize (OE eq_refl); congruence].
    apply entity_inv in E. destruct E as (_ & OE2 & tn & N & RE). rewrite OE2 in O3. subst s2.
    cbn [ahead okay] in O3. apply need_ok in O3. destruct O3 as [O1 B]. apply is_misc_eq in B. subst t.
    apply parse_fields_inv in PF; [|exact O1]. destruct PF as (_ & FO & FT). cbn [start rest] in FT.
    rewrite R1 in FT. apply fields_then_from in FT. destruct FT as (_ & F & LF & ->).
    exists (sel_fields w fs), F, tn, e, t3, r3. repeat (split; [assumption|]). split; [|exact IL].
    rewrite <- R2, RE, R3. reflexivity.
Qed.
Lemma select_all_ub_iff cs ts : select_all_of cs ts = PUb <->
  exists f F en e t r, loose_fields f F /\ fields_ok f /\ names cs en e /\
     ts = F ++ kmis KmFrom :: en ++ kmis KmLimit :: t :: r /\ is_lit t = false.
Proof.
  split.
  - intros P. destruct (select_all_class cs ts) as [[[x S]|[x S]]|[_ S]]; [congruence|congruence|exact S].
  - intros (f & F & en & e & t & r & LF & FO & N & -> & IL). unfold select_all_of, parse_select_all, start.
    set (tail := en ++ kmis KmLimit :: t :: r).
    assert (FT : fields_then f (F ++ kmis KmFrom :: tail) (kmis KmFrom :: tail)).
    { apply fields_then_from. split; [exact FO|]. eauto. }
    assert (LT : 3 <= length tail) by (subst tail; rewrite app_length; destruct N; cbn; lia).
    pose proof (fields_then_len _ _ _ FT) as FL. cbn [length] in FL. unfold remaining at 1. cbn [rest].
    replace (length (F ++ kmis KmFrom :: tail) <? 5) with false by (symmetry; apply Nat.ltb_ge; lia).
    destruct (parse_fields_ok f _ _ FO FT) as (wc & fs & SF & ->). cbn [pbind]. unfold remaining.
    cbn [rest]. replace (length (kmis KmFrom :: tail) <? 4) with false by (symmetry; apply Nat.ltb_ge; cbn [length]; lia).
    st. replace (is_misc KmFrom (kmis KmFrom)) with true by reflexivity. st. subst tail.
    rewrite (entity_ok cs en e); [|exact N|reflexivity|exact LT]. st. cbn [next_is rest].
    replace (is_misc KmLimit (kmis KmLimit)) with true by reflexivity. st.
    destruct t; try reflexivity. discriminate IL.
Qed.
