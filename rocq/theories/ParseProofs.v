(** Proofs about the DML parsers, part 1: WHERE, entities, DELETE, UPDATE. *)
From Coq Require Import Strings.String List NArith Bool Arith Lia.
From Verif Require Import Bytes DataModel RowModel LexModel ParseModel ParseSpec.
Import ListNotations.

Lemma is_sym_eq k t : is_sym k t = true -> t = TSym k.
Proof. destruct t as [j| | |]; cbn; try discriminate. destruct k, j; cbn; congruence. Qed.
Lemma is_misc_eq k t : is_misc k t = true -> t = kmis k.
Proof. unfold kmis. destruct t as [|[|j]| |]; cbn; try discriminate. destruct k; try discriminate; destruct j; (discriminate || reflexivity). Qed.

Lemma pbind_ok {A B} (r : pres A) (f : A -> pres B) b :
  pbind r f = POk b -> exists a, r = POk a /\ f a = POk b.
Proof. destruct r; cbn; try discriminate. intros H. eexists. split; [reflexivity | exact H]. Qed.

Lemma next_is_eq p s : next_is p s = true -> exists t r, rest s = t :: r /\ p t = true.
Proof. unfold next_is. destruct (rest s) as [|t r]; [discriminate|]. intros H. exists t, r. auto. Qed.
Lemma next_sym k s : next_is (is_sym k) s = true -> exists r, rest s = TSym k :: r.
Proof. intros H. apply next_is_eq in H. destruct H as (t & r & E & P). apply is_sym_eq in P. subst. eauto. Qed.
Lemma next_misc k s : next_is (is_misc k) s = true -> exists r, rest s = kmis k :: r.
Proof. intros H. apply next_is_eq in H. destruct H as (t & r & E & P). apply is_misc_eq in P. subst. eauto. Qed.
Lemma next_lit s : next_is is_lit s = true -> exists l r, rest s = TLit l :: r.
Proof.
  intros H. apply next_is_eq in H. destruct H as (t & r & E & P).
  destruct t; cbn in P; try discriminate P. eauto.
Qed.

Lemma ahead1 t r b : ahead 1 (mk_pst (t :: r) b) = mk_pst r b.
Proof. reflexivity. Qed.
Lemma need_mk b r o : need b (mk_pst r o) = mk_pst r (o && b).
Proof. reflexivity. Qed.
Ltac st := repeat (rewrite ?need_mk, ?ahead1; cbn [andb orb negb okay rest ahead_if pbind cur_is skipn]).

Ltac kill O := cbn in O; repeat (rewrite ?andb_false_r, ?andb_true_r in O; cbn in O); discriminate O.

Definition keys {A} (m : list (bytes * A)) : list bytes := map fst m.
Lemma has_key_in {A} k (m : list (bytes * A)) : has_key k m = true <-> In k (keys m).
Proof.
  unfold has_key, keys. rewrite existsb_exists, in_map_iff. split.
  - intros (p & I & E). apply bseq_eq in E. eauto.
  - intros (p & E & I). exists p. split; [exact I|]. apply bseq_eq. exact E.
Qed.
Lemma has_key_not {A} k (m : list (bytes * A)) : has_key k m = false <-> ~ In k (keys m).
Proof. rewrite <- has_key_in. destruct (has_key k m); split; congruence. Qed.
Lemma keys_app {A} (a b : list (bytes * A)) : keys (a ++ b) = keys a ++ keys b.
Proof. apply map_app. Qed.
Lemma nodup_snoc {A} (l : list A) x : NoDup (l ++ [x]) <-> NoDup l /\ ~ In x l.
Proof.
  split.
  - intros H. apply NoDup_remove in H. rewrite app_nil_r in H. exact H.
  - intros [N I]. apply (NoDup_Add (a:=x) (l:=l)); [|auto].
    rewrite <- (app_nil_r l) at 1. apply Add_app.
Qed.

(* ------------------------------------------------------------------ *)
(** * Conditions *)

Lemma rel_len c : 3 <= length (rel_toks c).
Proof. destruct c as [k [o l]]. destruct o; cbn; lia. Qed.

Lemma try_rel_ok c r : try_rel (mk_pst (rel_toks c ++ r) true) = POk (Some c, mk_pst r true).
Proof. destruct c as [k [o l]]. destruct o; reflexivity. Qed.

Lemma parse_operator_ok s o s' : parse_operator s = POk (o, s') -> okay s' = true ->
  okay s = true /\ exists q l, o = Some q /\
    forall k, TId k :: rest s = firstn (length (rel_toks (k, (q, l))) - 1) (rel_toks (k, (q, l))) ++ rest s'.
Proof.
  unfold parse_operator. destruct (rest s) as [|a [|b r]] eqn:R; try discriminate.
  pose (l0 := LBool true).
  repeat match goal with
  | |- (if ?b then _ else _) = _ -> _ => let E := fresh "E" in destruct b eqn:E
  end; intros H; injection H as <- <-; cbn; intros K;
  repeat match goal with H : _ && _ = true |- _ => apply andb_true_iff in H; destruct H end;
  repeat match goal with H : is_sym _ _ = true |- _ => apply is_sym_eq in H; subst end;
  try discriminate K; (split; [exact K|]).
  - exists OpEq, l0. split; reflexivity.
  - exists OpNe, l0. split; reflexivity.
  - exists OpGe, l0. split; reflexivity.
  - exists OpGt, l0. split; reflexivity.
  - exists OpLe, l0. split; reflexivity.
  - exists OpLt, l0. split; reflexivity.
Qed.

Lemma try_rel_inv s x s' : try_rel s = POk (x, s') -> okay s' = true ->
  okay s = true /\
  ((x = None /\ s' = s /\ remaining s < 3) \/ exists c, x = Some c /\ rest s = rel_toks c ++ rest s').
Proof.
  unfold try_rel. destruct (remaining s <? 3) eqn:L.
  { intros H. injection H as <- <-. intros K. apply Nat.ltb_lt in L. auto. }
  intros H K. apply pbind_ok in H. destruct H as ([t s1] & F & H). cbn beta iota in H.
  apply pbind_ok in H. destruct H as ([o s2] & P & H). cbn beta iota in H.
  destruct (okay (need (next_is is_lit s2) s2)) eqn:O.
  2:{ injection H as <- <-. congruence. }
  cbn in O. apply andb_true_iff in O. destruct O as [O NL].
  destruct (parse_operator_ok _ _ _ P O) as (O1 & q & l0 & -> & E). cbn [need okay rest] in O1, E.
  apply andb_true_iff in O1. destruct O1 as [O1 I].
  destruct t as [| |k|]; cbn in I; try discriminate I.
  destruct (next_lit _ NL) as (l & r & RL). cbn [need rest] in H. rewrite RL in H.
  injection H as <- <-.
  unfold fw_read in F. destruct (rest s) as [|t0 r0] eqn:RS; [discriminate F|]. injection F as -> <-.
  cbn in O1, E. split; [exact O1|]. right. exists (k, (q, l)). split; [reflexivity|].
  rewrite (E k), RL. cbn [rest]. destruct q; reflexivity.
Qed.

Lemma parse_operator_total s : 2 <= length (rest s) ->
  exists o s', parse_operator s = POk (o, s') /\ length (rest s') < length (rest s) /\
    (okay s' = true -> okay s = true /\ o <> None).
Proof.
  intros L. unfold parse_operator. destruct (rest s) as [|a [|b r]] eqn:R; cbn in L; try lia.
  repeat match goal with
  | |- context [if ?b then _ else _] => destruct b
  end; do 2 eexists; (split; [reflexivity|]); cbn; split; try lia; intros K; (split; [exact K | discriminate])
  || discriminate K.
Qed.

Lemma try_rel_total s : exists x s', try_rel s = POk (x, s') /\ length (rest s') <= length (rest s) /\
  (okay s = false -> okay s' = false).
Proof.
  unfold try_rel. destruct (remaining s <? 3) eqn:L.
  { do 2 eexists. split; [reflexivity|]. auto. }
  apply Nat.ltb_ge in L. unfold remaining in L. unfold fw_read.
  destruct (rest s) as [|t r] eqn:R; cbn in L; [lia|]. cbn [pbind].
  destruct (parse_operator_total (need (is_ident t) (mk_pst r (okay s)))) as (o & s2 & P & L2 & Q).
  { cbn. lia. }
  rewrite P. cbn [pbind]. destruct (okay (need (next_is is_lit s2) s2)) eqn:O.
  - cbn in O. apply andb_true_iff in O. destruct O as [O NL]. destruct (Q O) as [Q1 Q2]. cbn in Q1.
    apply andb_true_iff in Q1. destruct Q1 as [Q1 I]. destruct t; cbn in I; try discriminate I.
    destruct o; [|congruence]. destruct (next_lit _ NL) as (l & r2 & RL). cbn [need rest]. rewrite RL.
    do 2 eexists. split; [reflexivity|]. cbn in *. rewrite RL in L2. cbn in L2. split; [lia|]. congruence.
  - do 2 eexists. split; [reflexivity|]. cbn in *. split; [lia|]. auto.
Qed.

Lemma where_cons c w : where_toks (c :: w) =
  rel_toks c ++ match w with nil => nil | _ => kmis KmAnd :: where_toks w end.
Proof. unfold where_toks. destruct w; cbn [map sep]; [symmetry; apply app_nil_r | reflexivity]. Qed.
Lemma where_len w : w <> nil -> 3 <= length (where_toks w).
Proof.
  destruct w as [|c w]; [congruence|]. intros _. rewrite where_cons, app_length.
  pose proof (rel_len c). lia.
Qed.

Notation ands k := (repeat (kmis KmAnd) k).

Lemma where_loop_total n : forall c s, length (rest s) < n ->
  exists c' s', where_loop n c s = POk (c', s') /\ (okay s = false -> s' = s /\ c' = c).
Proof.
  induction n as [|n IH]; intros c s L; [lia|]. cbn [where_loop].
  destruct (going s) eqn:G; cbn [negb].
  2:{ do 2 eexists. split; [reflexivity|]. auto. }
  assert (okay s = true) as O.
  { unfold going in G. destruct (rest s); [discriminate G | exact G]. }
  destruct (try_rel_total s) as (x & s1 & T & L1 & _). rewrite T. cbn [pbind].
  destruct x as [[k e]|].
  - destruct (next_is _ _) eqn:N.
    + apply next_misc in N. destruct N as (r & R). cbn in R.
      destruct (IH (c ++ [(k, e)]) (ahead 1 (need (negb (has_key k c)) s1))) as (c' & s' & W & _).
      { cbn. rewrite R in *. cbn in *. lia. }
      rewrite W. do 2 eexists. split; [reflexivity|]. congruence.
    + do 2 eexists. split; [reflexivity|]. congruence.
  - destruct (next_is _ _) eqn:N.
    + apply next_misc in N. destruct N as (r & R).
      destruct (IH c (ahead 1 s1)) as (c' & s' & W & _).
      { cbn. rewrite R in *. cbn in *. lia. }
      rewrite W. do 2 eexists. split; [reflexivity|]. congruence.
    + do 2 eexists. split; [reflexivity|]. congruence.
Qed.

Lemma where_loop_inv n : forall c s c' s', where_loop n c s = POk (c', s') ->
  okay s' = true -> rest s' = nil -> NoDup (keys c) ->
  okay s = true /\ exists w k, c' = c ++ w /\ NoDup (keys c') /\
    ((w = nil /\ rest s = ands k /\ k <= 2) \/ (w <> nil /\ rest s = where_toks w ++ ands k /\ k <= 3)).
Proof.
  induction n as [|n IH]; intros c s c' s' H O R N; [discriminate H|]. cbn [where_loop] in H.
  destruct (going s) eqn:G; cbn [negb] in H.
  2:{ injection H as <- <-. split; [exact O|]. exists nil, 0. rewrite app_nil_r. split; [reflexivity|].
      split; [exact N|]. left. rewrite R. repeat split; lia. }
  apply pbind_ok in H. destruct H as ([x s1] & T & H). cbn beta iota in H.
  destruct x as [[k e]|].
  - destruct (next_is (is_misc KmAnd) (need (negb (has_key k c)) s1)) eqn:X.
    + assert (okay (need (negb (has_key k c)) s1) = true) as O1.
      { destruct (okay (need (negb (has_key k c)) s1)) eqn:O1; [reflexivity|]. exfalso.
        destruct n; [discriminate H|]. cbn [where_loop] in H. unfold going in H. cbn [ahead rest okay] in H.
        rewrite O1 in H. destruct (skipn 1 _); injection H as <- <-; cbn in O; cbn in O1; congruence. }
      apply next_misc in X. destruct X as (r & RR). cbn [need rest] in RR.
      pose proof O1 as O2. cbn in O2. apply andb_true_iff in O2. destruct O2 as [O2 HK].
      apply negb_true_iff in HK. apply has_key_not in HK.
      destruct (try_rel_inv _ _ _ T O2) as (OS & [(E & _)|(cl & E & RS)]); [discriminate E|].
      injection E as <-. split; [exact OS|].
      apply IH in H; [|exact O|exact R|rewrite keys_app; apply nodup_snoc; auto].
      destruct H as (_ & w & j & -> & ND & D). cbn [ahead need rest] in D. rewrite RR in D. cbn [skipn] in D.
      exists ((k, e) :: w). rewrite <- app_assoc in *. cbn [app] in *.
      destruct D as [(-> & RJ & J)|(W & RJ & J)].
      * exists (S j). split; [reflexivity|]. split; [exact ND|]. right. split; [discriminate|].
        rewrite where_cons, app_nil_r, RS, RR, RJ. split; [reflexivity | lia].
      * exists j. split; [reflexivity|]. split; [exact ND|]. right. split; [discriminate|].
        rewrite where_cons, RS, RR, RJ. destruct w; [congruence|]. rewrite <- app_assoc.
        split; [reflexivity | lia].
    + injection H as <- <-. cbn in R. cbn in O. apply andb_true_iff in O. destruct O as [O HK].
      apply negb_true_iff in HK. apply has_key_not in HK.
      destruct (try_rel_inv _ _ _ T O) as (OS & [(E & _)|(cl & E & RS)]); [discriminate E|].
      injection E as <-. split; [exact OS|]. exists [(k, e)], 0. split; [reflexivity|].
      split; [rewrite keys_app; apply nodup_snoc; auto|]. right. split; [discriminate|].
      rewrite where_cons, RS, R. cbn [repeat]. rewrite !app_nil_r. split; [reflexivity | lia].
  - destruct (next_is (is_misc KmAnd) s1) eqn:X.
    + assert (okay s1 = true) as O1.
      { destruct (okay s1) eqn:O1; [reflexivity|]. exfalso.
        destruct n; [discriminate H|]. cbn [where_loop] in H. unfold going in H. cbn [ahead rest okay] in H.
        rewrite O1 in H. destruct (skipn 1 _); injection H as <- <-; cbn in O; congruence. }
      apply next_misc in X. destruct X as (r & RR).
      destruct (try_rel_inv _ _ _ T O1) as (OS & [(_ & -> & L)|(cl & E & RS)]); [|discriminate E].
      split; [exact OS|]. apply IH in H; [|exact O|exact R|exact N].
      destruct H as (_ & w & j & -> & ND & D). cbn [ahead rest] in D. rewrite RR in D. cbn [skipn] in D.
      unfold remaining in L. rewrite RR in L. cbn in L.
      destruct D as [(-> & RJ & J)|(W & RJ & J)].
      * exists nil, (S j). split; [reflexivity|]. split; [exact ND|]. left. split; [reflexivity|].
        rewrite RR, RJ. split; [reflexivity|]. rewrite RJ, repeat_length in L. lia.
      * exfalso. apply where_len in W. rewrite RJ, app_length in L. lia.
    + injection H as <- <-. exfalso.
      destruct (try_rel_inv _ _ _ T O) as (OS & [(_ & -> & L)|(cl & E & RS)]); [|discriminate E].
      unfold going in G. rewrite R in G. discriminate G.
Qed.

Lemma where_loop_ands n c k : k <= 2 -> k < n ->
  where_loop n c (mk_pst (ands k) true) = POk (c, mk_pst nil true).
Proof.
  intros K L. destruct k as [|[|[|k]]]; [| | |lia].
  - destruct n; [lia|]. reflexivity.
  - destruct n as [|[|n]]; try lia. reflexivity.
  - destruct n as [|[|[|n]]]; try lia. reflexivity.
Qed.

Lemma going_cons t r : going (mk_pst (t :: r) true) = true.
Proof. reflexivity. Qed.

Lemma where_loop_ok w : forall n c k, w <> nil -> NoDup (keys (c ++ w)) -> k <= 3 ->
  length (where_toks w ++ ands k) < n ->
  where_loop n c (mk_pst (where_toks w ++ ands k) true) = POk (c ++ w, mk_pst nil true).
Proof.
  induction w as [|cl w IH]; intros n c k W ND K L; [congruence|].
  destruct n as [|n]; [lia|]. rewrite where_cons, <- app_assoc in *. cbn [where_loop].
  assert (G : going (mk_pst (rel_toks cl ++ match w with nil => nil | _ => kmis KmAnd :: where_toks w end ++ ands k) true) = true).
  { destruct cl as [? [? ?]]. reflexivity. }
  rewrite G. cbn [negb]. clear G. rewrite try_rel_ok. cbn [pbind]. destruct cl as [kk e].
  assert (HK : has_key kk c = false).
  { apply has_key_not. rewrite keys_app in ND. cbn in ND. apply NoDup_remove_2 in ND. intros I.
    apply ND. apply in_or_app. left. exact I. }
  rewrite HK. cbn [need negb andb okay rest]. pose proof (rel_len (kk, e)) as RL. rewrite !app_length in L.
  destruct w as [|d w].
  - cbn [app]. destruct k as [|k].
    + reflexivity.
    + cbn [repeat next_is rest is_misc kmis ahead skipn okay]. apply where_loop_ands; [lia|].
      cbn [length app] in L. rewrite repeat_length in L. lia.
  - change (where_loop n (c ++ [(kk, e)]) (mk_pst (where_toks (d :: w) ++ ands k) true) =
            POk (c ++ (kk, e) :: d :: w, mk_pst nil true)).
    rewrite (IH n (c ++ [(kk, e)]) k).
    + rewrite <- app_assoc. reflexivity.
    + discriminate.
    + rewrite <- app_assoc. exact ND.
    + exact K.
    + cbn [length] in L. rewrite app_length. lia.
Qed.

(** the WHERE clause to the end of the statement *)
Lemma parse_where_inv s c s' : parse_where s = POk (c, s') ->
  okay (nonempty_where c s') = true -> rest s' = nil ->
  okay s = true /\ where_ok c /\ exists k, rest s = where_toks c ++ ands k /\ k <= 3.
Proof.
  unfold parse_where. intros H O R. cbn in O. apply andb_true_iff in O. destruct O as [O NE].
  destruct (where_loop_inv _ _ _ _ _ H O R ltac:(constructor)) as (OS & w & k & -> & ND & D).
  cbn [app] in *. split; [exact OS|]. destruct D as [(-> & _ & _)|(W & RS & K)]; [discriminate NE|].
  split; [split; assumption|]. eauto.
Qed.
Lemma parse_where_ok w k : where_ok w -> k <= 3 ->
  parse_where (mk_pst (where_toks w ++ ands k) true) = POk (w, mk_pst nil true).
Proof.
  intros [W ND] K. unfold parse_where, remaining. cbn [rest].
  apply (where_loop_ok w _ nil k W ND K). lia.
Qed.
Lemma parse_where_total s : exists c s', parse_where s = POk (c, s').
Proof.
  unfold parse_where. destruct (where_loop_total (S (remaining s)) nil s) as (c & s' & H & _).
  { unfold remaining. lia. }
  eauto.
Qed.
Lemma nonempty_ok w s : where_ok w -> nonempty_where w s = s.
Proof.
  intros [W _]. unfold nonempty_where, need. destruct w; [congruence|]. rewrite andb_true_r.
  destruct s; reflexivity.
Qed.

(* ------------------------------------------------------------------ *)
(** * Entities *)

Definition no_dot (r : list token) : Prop :=
  match r with t :: _ => is_sym SPeriod t = false | nil => True end.

Lemma entity_inv cs s e s' : entity_buffered cs s = POk (e, s') ->
  3 <= length (rest s) /\
  match e with
  | Some e => okay s' = okay s /\ exists en, names cs en e /\ rest s = en ++ rest s'
  | None => s' = poison s
  end.
Proof.
  unfold entity_buffered. destruct (rest s) as [|a [|b [|c r]]] eqn:R; try discriminate.
  intros H. split; [cbn; lia|].
  destruct a as [| |x|]; try (injection H as <- <-; reflexivity).
  assert (S : match cs with
              | Some sp => POk (Some (sp, x), mk_pst (b :: c :: r) (okay s))
              | None => POk (None, poison s)
              end = POk (e, s') ->
     match e with
     | Some e0 => okay s' = okay s /\ exists en, names cs en e0 /\ TId x :: b :: c :: r = en ++ rest s'
     | None => s' = poison s
     end).
  { destruct cs as [sp|]; intros K; injection K as <- <-; [|reflexivity]. split; [reflexivity|].
    exists [TId x]. split; [constructor|]; reflexivity. }
  destruct (is_sym SPeriod b) eqn:B; [|apply S; exact H].
  apply is_sym_eq in B. subst b. destruct c as [| |y|]; try (apply S; exact H).
  injection H as <- <-. split; [reflexivity|]. exists [TId x; TSym SPeriod; TId y].
  split; [constructor|]; reflexivity.
Qed.
Lemma entity_ok cs en e r ok : names cs en e -> no_dot r -> 3 <= length (en ++ r) ->
  entity_buffered cs (mk_pst (en ++ r) ok) = POk (Some e, mk_pst r ok).
Proof.
  intros N D L. destruct N as [a b|a b E].
  - reflexivity.
  - subst cs. destruct r as [|t [|t' r]]; cbn in L; try lia. cbn in D. unfold entity_buffered.
    cbn [app rest]. rewrite D. reflexivity.
Qed.
Lemma entity_panic cs s : entity_buffered cs s = PPanic <-> length (rest s) < 3.
Proof.
  unfold entity_buffered. destruct (rest s) as [|a [|b [|c r]]]; cbn;
    try (split; [intros; lia | reflexivity]).
  split; [|intros; lia]. destruct a; try discriminate.
  destruct (is_sym SPeriod b); [destruct c|]; destruct cs; discriminate.
Qed.
Lemma entity_total cs s : 3 <= length (rest s) -> exists e s', entity_buffered cs s = POk (e, s') /\
  length (rest s) <= length (rest s') + 3.
Proof.
  intros L. unfold entity_buffered. destruct (rest s) as [|a [|b [|c r]]] eqn:R; cbn in L; try lia.
  destruct a; try (do 2 eexists; split; [reflexivity|]; cbn; rewrite ?R; cbn; lia).
  destruct (is_sym SPeriod b); [destruct c|]; destruct cs; do 2 eexists; (split; [reflexivity|]);
    cbn; rewrite ?R; cbn; lia.
Qed.

Lemma finish_ok {A} e s (f : entity -> A) a s' : finish e s f = POk (a, s') ->
  okay s = true /\ s' = s /\ exists en, e = Some en /\ a = f en.
Proof.
  unfold finish. destruct (okay s); [|discriminate]. destruct e as [en|]; [|discriminate].
  intros H. injection H as <- <-. eauto.
Qed.
Lemma hardened_ok {A} (r : pres (A * pst)) a : hardened r = POk a ->
  exists s, r = POk (a, s) /\ rest s = nil.
Proof.
  unfold hardened. intros H. apply pbind_ok in H. destruct H as ([a' s] & E & H). cbn beta iota in H.
  destruct (rest s) eqn:R; [|discriminate H]. injection H as <-. eauto.
Qed.
Lemma cur_is_ok p s b : cur_is p s = POk b -> exists t r, rest s = t :: r /\ b = p t.
Proof. unfold cur_is. destruct (rest s); [discriminate|]. intros H. injection H as <-. eauto. Qed.
Lemma need_ok b s : okay (need b s) = true -> okay s = true /\ b = true.
Proof. cbn. apply andb_true_iff. Qed.

(* ------------------------------------------------------------------ *)
(** * DELETE *)

Lemma delete_iff cs ts d : delete_of cs ts = POk d <->
  exists u k, ts = u ++ ands k /\ k <= 3 /\ wf_delete cs u (de_entity d) (de_where d).
Proof.
  split.
  - intros H. apply hardened_ok in H. destruct H as (s & H & R). unfold parse_delete in H.
    destruct (remaining (start ts) <? 5); [discriminate H|].
    apply pbind_ok in H. destruct H as (b & C & H). cbn zeta in H.
    apply pbind_ok in H. destruct H as ([e s2] & E & H). cbn beta iota in H.
    apply pbind_ok in H. destruct H as (b2 & C2 & H). cbn zeta in H.
    apply pbind_ok in H. destruct H as ([c s3] & W & H). cbn beta iota in H.
    apply finish_ok in H. destruct H as (O & -> & en & -> & ->).
    destruct (parse_where_inv _ _ _ W O R) as (O3 & WO & k & RW & K).
    cbn [ahead okay] in O3. apply need_ok in O3. destruct O3 as [O2 B2].
    apply entity_inv in E. destruct E as (L & OE & tn & N & RE).
    rewrite OE in O2. cbn [ahead okay] in O2. apply need_ok in O2. destruct O2 as [_ B].
    apply cur_is_ok in C. destruct C as (t & r & RT & P). rewrite P in B. apply is_misc_eq in B. subst t.
    apply cur_is_ok in C2. destruct C2 as (t & r2 & RT2 & P2). rewrite P2 in B2. apply is_misc_eq in B2. subst t.
    cbn [start rest] in RT. subst ts. cbn [ahead need rest start skipn] in RE.
    cbn [ahead need rest] in RW. rewrite RT2 in RW. cbn [skipn] in RW.
    exists (kmis KmFrom :: tn ++ kmis KmWhere :: where_toks c), k.
    split; [|split; [exact K | constructor; assumption]].
    rewrite RE, RT2, RW. cbn [app]. rewrite <- app_assoc. reflexivity.
  - intros (u & k & -> & K & W). destruct d as [e w]. cbn [de_entity de_where] in W. destruct W as [en e w N WO].
    assert (RD : (kmis KmFrom :: en ++ kmis KmWhere :: where_toks w) ++ ands k =
                 kmis KmFrom :: en ++ kmis KmWhere :: where_toks w ++ ands k).
    { cbn [app]. rewrite <- app_assoc. reflexivity. }
    rewrite RD. clear RD. unfold delete_of, parse_delete, start, remaining. cbn [rest].
    assert (L : 5 <= length (kmis KmFrom :: en ++ kmis KmWhere :: where_toks w ++ ands k)).
    { cbn [length]. rewrite app_length. cbn [length]. rewrite app_length. destruct WO as [WO _].
      apply where_len in WO. destruct N; cbn; lia. }
    apply Nat.ltb_ge in L. rewrite L. st.
    replace (is_misc KmFrom (kmis KmFrom)) with true by reflexivity. st.
    rewrite (entity_ok cs en e); [|exact N|reflexivity|].
    2:{ rewrite app_length. cbn [length]. rewrite app_length. destruct WO as [WO _].
        apply where_len in WO. destruct N; cbn; lia. }
    st. replace (is_misc KmWhere (kmis KmWhere)) with true by reflexivity. st.
    rewrite parse_where_ok by assumption. cbn [pbind]. rewrite nonempty_ok by assumption. reflexivity.
Qed.

Lemma entity_total' cs s : 3 <= length (rest s) -> exists e s', entity_buffered cs s = POk (e, s') /\
  length (rest s) <= length (rest s') + 3 /\ (e = None -> okay s' = false).
Proof.
  intros L. destruct (entity_total cs s L) as (e & s' & E & L'). exists e, s'. split; [exact E|].
  split; [exact L'|]. apply entity_inv in E. destruct E as [_ E]. destruct e; [discriminate|].
  intros _. subst s'. reflexivity.
Qed.
Lemma where_okay_inv n : forall c s c' s', where_loop n c s = POk (c', s') -> okay s' = true -> okay s = true.
Proof.
  induction n as [|n IH]; intros c s c' s' H O; [discriminate H|]. cbn [where_loop] in H.
  destruct (going s) eqn:G; cbn [negb] in H.
  - unfold going in G. destruct (rest s); [discriminate G | exact G].
  - injection H as <- <-. exact O.
Qed.
Lemma finish_total {A} e s (f : entity -> A) : (e = None -> okay s = false) ->
  (exists x, finish e s f = POk x) \/ (exists er, finish e s f = PErr er).
Proof.
  intros H. unfold finish. destruct (okay s); [|eauto]. destruct e; [eauto|].
  specialize (H eq_refl). discriminate H.
Qed.

(** no panic, no undefined behaviour, no lack of fuel *)
Definition sound {A} (r : pres A) : Prop := (exists x, r = POk x) \/ (exists e, r = PErr e).
Lemma hardened_sound {A} (r : pres (A * pst)) : sound r -> sound (hardened r).
Proof.
  intros [[[a s] ->]|[e ->]]; unfold hardened; cbn [pbind].
  - destruct (rest s); [left | right]; eauto.
  - right. eauto.
Qed.

Lemma delete_sound cs ts : sound (delete_of cs ts).
Proof.
  apply hardened_sound. unfold parse_delete. destruct (remaining (start ts) <? 5) eqn:L.
  { right. eauto. }
  apply Nat.ltb_ge in L. unfold start, remaining in L. cbn [rest] in L.
  destruct ts as [|t ts]; cbn in L; [lia|]. unfold start. st.
  destruct (entity_total' cs (mk_pst ts (is_misc KmFrom t))) as (e & s2 & E & L2 & OE); [cbn; lia|].
  rewrite E. cbn [pbind rest] in *. unfold cur_is. destruct (rest s2) as [|t2 r2] eqn:R2; [cbn in L2; lia|].
  cbn [pbind]. destruct (parse_where_total (ahead 1 (need (is_misc KmWhere t2) s2))) as (c & s3 & W).
  rewrite W. cbn [pbind]. apply finish_total. intros X. specialize (OE X). cbn.
  destruct (okay s3) eqn:O3; [|reflexivity]. apply where_okay_inv in W; [|exact O3]. cbn in W.
  rewrite OE in W. discriminate W.
Qed.

(* ------------------------------------------------------------------ *)
(** * UPDATE *)

Lemma asg_op_some t o : asg_op t = Some o ->
  match o with
  | AAssign => t = TSym SAssign | AAdd => t = TSym SAdd | ASub => t = TSym SSub
  | AMul => t = TSym SMul | ADiv => t = TSym SDiv
  end.
Proof.
  unfold asg_op. repeat match goal with
  | |- (if ?b then _ else _) = _ -> _ => let E := fresh "E" in destruct b eqn:E
  end; intros H; try discriminate H; injection H as <-; apply is_sym_eq; assumption.
Qed.
Lemma parse_assign_ok es a r : parse_assign es (mk_pst (asg_toks a ++ r) true) =
  POk (es ++ [a], mk_pst r true).
Proof. destruct a as [k o l]. destruct o; reflexivity. Qed.
Lemma parse_assign_inv es s es' s' : parse_assign es s = POk (es', s') -> okay s' = true ->
  okay s = true /\ exists a, es' = es ++ [a] /\ rest s = asg_toks a ++ rest s'.
Proof.
  unfold parse_assign. destruct (remaining s <? 3).
  { intros H. injection H as <- <-. discriminate. }
  intros H O. apply pbind_ok in H. destruct H as ([lhs s1] & F & H). cbn beta iota zeta in H.
  apply pbind_ok in H. destruct H as ([t s2] & F2 & H). cbn beta iota in H.
  unfold fw_read in F. destruct (rest s) as [|x r] eqn:RS; [discriminate F|]. injection F as -> <-.
  unfold fw_read in F2. cbn [need rest okay] in F2. destruct r as [|x r]; [discriminate F2|]. injection F2 as -> <-.
  cbn zeta in H.
  match type of H with (if okay ?s then _ else _) = _ => set (s3 := s) in H; destruct (okay s3) eqn:O3 end.
  2:{ injection H as <- <-. congruence. }
  subst s3. apply need_ok in O3. destruct O3 as [O3 NL]. 
  destruct (next_lit _ NL) as (l & r3 & R3). cbn [need rest] in H, NL.
  destruct (asg_op t) as [o|] eqn:AO.
  2:{ exfalso. match type of O3 with okay (ahead_if ?b _) = true => destruct b end; kill O3. }
  pose proof (asg_op_some _ _ AO) as T.
  destruct lhs as [| |k|]; try (exfalso; cbn in O3;
    match type of O3 with okay (ahead_if ?b _) = true => destruct b end; kill O3).
  rewrite R3 in H. injection H as <- <-. cbn [rest].
  assert (O0 : okay s = true).
  { match type of O3 with okay (ahead_if ?b _) = true => destruct b end; cbn in O3;
      apply andb_true_iff in O3; destruct O3 as [O3 _]; rewrite !andb_true_r in O3; exact O3. }
  split; [exact O0|]. exists (mk_as k o l). split; [reflexivity|].
  unfold asg_toks. cbn [as_lhs as_op as_rhs]. f_equal.
  destruct o; subst t; cbn [negb andb orb] in R3, O3.
  1:{ cbn [ahead_if need rest] in R3. rewrite R3. reflexivity. }
  all: match type of R3 with context [next_is ?p ?s] => destruct (next_is p s) eqn:NX end;
    [ apply next_sym in NX; destruct NX as (r' & NX); cbn in NX; subst r; cbn in R3; subst r'; reflexivity
    | kill O3 ].
Qed.
Lemma parse_assign_total es s : exists es' s', parse_assign es s = POk (es', s') /\
  (okay s' = true -> length (rest s') < length (rest s)).
Proof.
  enough (T : exists es' s', parse_assign es s = POk (es', s')).
  { destruct T as (es' & s' & P). exists es', s'. split; [exact P|]. intros O.
    destruct (parse_assign_inv _ _ _ _ P O) as (_ & a & _ & R).
    rewrite R, app_length. destruct a as [k o l]. destruct o; cbn; lia. }
  unfold parse_assign. destruct (remaining s <? 3) eqn:L; [eauto|].
  apply Nat.ltb_ge in L. unfold remaining in L. unfold fw_read.
  destruct (rest s) as [|x [|y r]]; cbn in L; try lia. cbn [pbind]. rewrite need_mk. cbn [rest okay pbind].
  cbn zeta. match goal with |- context [if okay ?s then _ else _] => remember s as s3 eqn:E3 end.
  destruct (okay s3) eqn:O3; [|eauto]. rewrite E3 in O3. apply need_ok in O3. destruct O3 as [O3 NL].
  destruct (next_lit _ NL) as (l & r3 & R3).
  assert (RR : rest s3 = TLit l :: r3) by (rewrite E3; exact R3). rewrite RR.
  destruct (asg_op y) as [o|] eqn:AO.
  2:{ exfalso. match type of O3 with okay (ahead_if ?b _) = true => destruct b end; kill O3. }
  destruct x as [| |k|]; try (exfalso; cbn in O3;
    match type of O3 with okay (ahead_if ?b _) = true => destruct b end; kill O3).
  eauto.
Qed.

Lemma set_cons a l : set_toks (a :: l) =
  asg_toks a ++ match l with nil => nil | _ => TSym SComma :: set_toks l end.
Proof. unfold set_toks. destruct l; cbn [map sep]; [symmetry; apply app_nil_r | reflexivity]. Qed.

Lemma assign_loop_okay n : forall es w s es' w' s',
  assign_loop n es w s = POk (es', w', s') -> okay s' = true -> okay s = true.
Proof.
  induction n as [|n IH]; intros es w s es' w' s' H O; [discriminate H|]. cbn [assign_loop] in H.
  destruct (negb (going s) || w) eqn:G; [injection H as <- <- <-; exact O|].
  apply orb_false_iff in G. destruct G as [G _]. apply negb_false_iff in G. unfold going in G.
  destruct (rest s); [discriminate G | exact G].
Qed.
Lemma assign_loop_inv n : forall es s es' s',
  assign_loop n es false s = POk (es', true, s') -> okay s' = true ->
  exists l r, es' = es ++ l /\ l <> nil /\ rest s' = kmis KmWhere :: r /\ rest s = set_toks l ++ rest s'.
Proof.
  induction n as [|n IH]; intros es s es' s' H O; [discriminate H|]. cbn [assign_loop] in H.
  destruct (negb (going s) || false) eqn:G; [discriminate H|].
  apply pbind_ok in H. destruct H as ([es1 s1] & P & H). cbn beta iota zeta in H.
  pose proof (assign_loop_okay _ _ _ _ _ _ _ H O) as O1.
  destruct (next_is (is_sym SComma) s1) eqn:C.
  - cbn [ahead_if ahead okay] in O1. apply need_ok in O1. destruct O1 as [O1 _].
    destruct (parse_assign_inv _ _ _ _ P O1) as (_ & a & -> & R).
    apply next_sym in C. destruct C as (r & RC).
    assert (W : next_is (is_misc KmWhere) s1 = false) by (unfold next_is; rewrite RC; reflexivity).
    rewrite W in H. apply IH in H; [|exact O]. destruct H as (l & r' & -> & NE & R' & RR).
    cbn [ahead_if ahead need rest] in RR. rewrite RC in RR. cbn [skipn] in RR.
    exists (a :: l), r'. split; [rewrite <- app_assoc; reflexivity|]. split; [discriminate|].
    split; [exact R'|]. rewrite R, RC, RR, set_cons. destruct l; [congruence|].
    rewrite <- app_assoc. reflexivity.
  - cbn [ahead_if] in H, O1. apply need_ok in O1. destruct O1 as [O1 W]. cbn [orb] in W.
    destruct (parse_assign_inv _ _ _ _ P O1) as (_ & a & -> & R). rewrite W in H.
    destruct n as [|n]; [discriminate H|]. cbn [assign_loop] in H. rewrite orb_true_r in H.
    injection H as <- <-. apply next_misc in W. destruct W as (r & RW).
    exists [a], r. split; [reflexivity|]. split; [discriminate|]. cbn [need rest]. split; [exact RW|].
    rewrite set_cons, app_nil_r. exact R.
Qed.
Lemma assign_loop_ok l : forall n es r, l <> nil ->
  length (set_toks l ++ kmis KmWhere :: r) < n ->
  assign_loop n es false (mk_pst (set_toks l ++ kmis KmWhere :: r) true) =
  POk (es ++ l, true, mk_pst (kmis KmWhere :: r) true).
Proof.
  induction l as [|a l IH]; intros n es r NE L; [congruence|].
  destruct n as [|n]; [lia|]. rewrite set_cons, <- app_assoc in *. cbn [assign_loop].
  match goal with |- context [negb (going ?s) || false] => assert (G : going s = true) end.
  { destruct a. reflexivity. }
  rewrite G. cbn [negb orb]. clear G. rewrite parse_assign_ok. cbn [pbind].
  rewrite app_length in L. assert (LA : 3 <= length (asg_toks a)) by (destruct a as [? [] ?]; cbn; lia).
  destruct l as [|b l].
  - cbn. destruct n; [lia|]. reflexivity.
  - change (assign_loop n (es ++ [a]) false (mk_pst (set_toks (b :: l) ++ kmis KmWhere :: r) true) =
            POk (es ++ a :: b :: l, true, mk_pst (kmis KmWhere :: r) true)).
    rewrite (IH n).
    + rewrite <- app_assoc. reflexivity.
    + discriminate.
    + cbn [length app] in L. lia.
Qed.
Lemma assign_loop_total n : forall es w s, length (rest s) + (if okay s then 1 else 0) < n ->
  exists es' w' s', assign_loop n es w s = POk (es', w', s').
Proof.
  induction n as [|n IH]; intros es w s L; [lia|]. cbn [assign_loop].
  destruct (negb (going s) || w) eqn:G; [eauto|].
  destruct (parse_assign_total es s) as (es1 & s1 & P & L1). rewrite P. cbn [pbind].
  apply orb_false_iff in G. destruct G as [G _]. apply negb_false_iff in G.
  assert (okay s = true) as O by (unfold going in G; destruct (rest s); [discriminate G | exact G]).
  rewrite O in L.
  set (c := next_is (is_sym SComma) s1) in *. set (w1 := next_is (is_misc KmWhere) s1).
  destruct (okay s1) eqn:O1.
  - specialize (L1 eq_refl). apply IH. destruct c; cbn [ahead_if ahead need rest okay].
    + assert (length (skipn 1 (rest s1)) <= length (rest s1)) by (rewrite skipn_length; lia).
      rewrite O1. destruct (true && (true || w1)); lia.
    + rewrite O1. destruct (true && (false || w1)); lia.
  - assert (K : going (ahead_if c (need (c || w1) s1)) = false).
    { destruct c; cbn [ahead_if]; unfold going; cbn [ahead need okay rest]; rewrite O1;
      match goal with |- match ?l with _ => _ end = _ => destruct l end; reflexivity. }
    destruct n as [|n]; [exfalso; unfold going in G; destruct (rest s); cbn in *; [discriminate G|lia]|].
    cbn [assign_loop]. rewrite K. cbn. eauto.
Qed.

Lemma update_iff cs ts d : update_of cs ts = POk d <->
  exists u k, ts = u ++ ands k /\ k <= 3 /\ wf_update cs u (up_entity d) (up_set d) (up_where d).
Proof.
  split.
  - intros H. apply hardened_ok in H. destruct H as (s & H & R). unfold parse_update in H.
    destruct (remaining (start ts) <? 9); [discriminate H|].
    apply pbind_ok in H. destruct H as ([e s2] & E & H). cbn beta iota in H.
    destruct (remaining s2 <? 6); [discriminate H|].
    apply pbind_ok in H. destruct H as (b & C & H). cbn zeta in H.
    apply pbind_ok in H. destruct H as ([[es w] s3] & A & H). cbn beta iota zeta in H.
    apply pbind_ok in H. destruct H as ([c s4] & W & H). cbn beta iota in H.
    apply finish_ok in H. destruct H as (O & -> & en & -> & ->).
    destruct (parse_where_inv _ _ _ W O R) as (O3 & WO & k & RW & K).
    destruct (okay (need w s3)) eqn:OW.
    2:{ cbn [ahead_if] in O3. congruence. }
    cbn [ahead_if ahead need rest] in RW. apply need_ok in OW. destruct OW as [OW ->].
    pose proof (assign_loop_okay _ _ _ _ _ _ _ A OW) as O2.
    apply assign_loop_inv in A; [|exact OW]. destruct A as (l & r & -> & NE & R3 & RA).
    cbn [ahead okay] in O2. apply need_ok in O2. destruct O2 as [O2 ->].
    apply entity_inv in E. destruct E as (L & OE & tn & N & RE).
    apply cur_is_ok in C. destruct C as (t & r2 & RT & P). symmetry in P. apply is_misc_eq in P. subst t.
    cbn [start rest] in RE. rewrite R3 in RW, RA. cbn [skipn] in RW.
    cbn [ahead need rest] in RA. rewrite RT in RA. cbn [skipn] in RA.
    exists (tn ++ kmis KmSet :: set_toks l ++ kmis KmWhere :: where_toks c), k.
    split; [|split; [exact K | constructor; assumption]].
    rewrite RE, RT, RA, RW, <- app_assoc. cbn [app]. rewrite <- app_assoc. reflexivity.
  - intros (u & k & -> & K & W). destruct d as [e l w]. cbn [up_entity up_set up_where] in W.
    destruct W as [en e l w N NE WO].
    assert (RD : (en ++ kmis KmSet :: set_toks l ++ kmis KmWhere :: where_toks w) ++ ands k =
                 en ++ kmis KmSet :: set_toks l ++ kmis KmWhere :: where_toks w ++ ands k).
    { rewrite <- app_assoc. cbn [app]. rewrite <- app_assoc. reflexivity. }
    rewrite RD. clear RD. unfold update_of, parse_update, start, remaining. cbn [rest].
    assert (L1 : 3 <= length (set_toks l)).
    { destruct l as [|a l]; [congruence|]. rewrite set_cons, app_length. destruct a as [? [] ?]; cbn; lia. }
    pose proof WO as [W1 _]. apply where_len in W1.
    assert (L : 9 <= length (en ++ kmis KmSet :: set_toks l ++ kmis KmWhere :: where_toks w ++ ands k)).
    { rewrite app_length. cbn [length]. rewrite app_length. cbn [length]. rewrite app_length.
      destruct N; cbn; lia. }
    pose proof L as L9. apply Nat.ltb_ge in L9. rewrite L9.
    rewrite (entity_ok cs en e); [|exact N|reflexivity|lia].
    cbn [pbind rest].
    assert (L6 : 6 <= length (kmis KmSet :: set_toks l ++ kmis KmWhere :: where_toks w ++ ands k)).
    { cbn [length]. rewrite app_length. cbn [length]. rewrite app_length. lia. }
    apply Nat.ltb_ge in L6. rewrite L6. st.
    replace (is_misc KmSet (kmis KmSet)) with true by reflexivity. st.
    rewrite assign_loop_ok; [|exact NE|lia]. cbn [app]. st.
    rewrite parse_where_ok by assumption. cbn [pbind]. rewrite nonempty_ok by assumption. reflexivity.
Qed.

Lemma update_sound cs ts : sound (update_of cs ts).
Proof.
  apply hardened_sound. unfold parse_update. destruct (remaining (start ts) <? 9) eqn:L.
  { right. eauto. }
  apply Nat.ltb_ge in L. unfold start, remaining in *. cbn [rest] in *.
  destruct (entity_total' cs (mk_pst ts true)) as (e & s2 & E & L2 & OE); [cbn; lia|].
  rewrite E. cbn [pbind rest] in *. destruct (length (rest s2) <? 6) eqn:L6.
  { apply Nat.ltb_lt in L6. lia. }
  unfold cur_is. destruct (rest s2) as [|t r] eqn:R2; [cbn in L2; lia|]. cbn [pbind].
  set (s3 := ahead 1 (need (is_misc KmSet t) s2)).
  assert (T : exists es w s4, assign_loop (S (length (rest s3))) nil false s3 = POk (es, w, s4)).
  { destruct (okay s3) eqn:O3.
    - subst s3. cbn [ahead need rest]. rewrite R2. cbn [skipn length] in *.
      destruct r as [|t2 r]; [cbn in L6; discriminate L6|].
      cbn [assign_loop].
      destruct (negb (going _) || false) eqn:G; [eauto|].
      match goal with |- context [parse_assign nil ?s] => destruct (parse_assign_total nil s) as (es1 & s1 & P & L1) end.
      rewrite P. cbn [pbind]. set (c := next_is (is_sym SComma) s1) in *. set (w1 := next_is (is_misc KmWhere) s1).
      destruct (okay s1) eqn:O1.
      + specialize (L1 eq_refl). cbn [ahead need rest] in L1. rewrite R2 in L1. cbn [skipn length] in L1.
        assert (L0 : length (rest s1) < length r).
        { destruct (parse_assign_inv _ _ _ _ P O1) as (_ & a & _ & RA). cbn [ahead need rest] in RA.
          rewrite R2 in RA. cbn [skipn] in RA. apply (f_equal (@length _)) in RA. rewrite app_length in RA.
          destruct a as [? [] ?]; cbn in RA; lia. }
        apply assign_loop_total. destruct c; cbn [ahead_if ahead need rest okay length].
        * assert (length (skipn 1 (rest s1)) <= length (rest s1)) by (rewrite skipn_length; lia).
          rewrite O1. destruct (true && (true || w1)); lia.
        * rewrite O1. destruct (true && (false || w1)); lia.
      + assert (K : going (ahead_if c (need (c || w1) s1)) = false).
        { destruct c; cbn [ahead_if]; unfold going; cbn [ahead need okay rest]; rewrite O1;
          match goal with |- match ?l with _ => _ end = _ => destruct l end; reflexivity. }
        cbn [length assign_loop]. rewrite K. cbn. eauto.
    - apply assign_loop_total. rewrite O3. lia. }
  destruct T as (es & w & s4 & A). rewrite A. cbn [pbind].
  set (s5 := ahead_if (okay (need w s4)) (need w s4)).
  destruct (parse_where_total s5) as (c & s6 & W). rewrite W. cbn [pbind].
  apply finish_total. intros X. specialize (OE X). cbn.
  destruct (okay s6) eqn:O6; [|reflexivity]. exfalso. apply where_okay_inv in W; [|exact O6].
  subst s5. destruct (okay (need w s4)) eqn:OW.
  2:{ cbn [ahead_if] in W. congruence. }
  apply need_ok in OW. destruct OW as [O4 _].
  pose proof (assign_loop_okay _ _ _ _ _ _ _ A O4) as O3. subst s3. cbn in O3. rewrite OE in O3. discriminate O3.
Qed.
