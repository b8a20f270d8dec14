From Coq Require Import List NArith Bool Lia Arith.
From Verif Require Import ShutModel ShutSpec.
Import ListNotations.

(** ** Sums over handlers and tasks *)
Lemma set_h_split : forall l i h, nth_error l i = Some h ->
  exists a b, l = a ++ h :: b /\ length a = i /\ forall h', set_h l i h' = a ++ h' :: b.
Proof.
  intros l i h E. destruct (nth_error_split l i E) as (a & b & -> & L).
  exists a, b. split; [reflexivity|]. split; [exact L|]. intros h'. unfold set_h. subst i.
  rewrite firstn_app, Nat.sub_diag, firstn_O, app_nil_r, firstn_all.
  rewrite skipn_app. replace (S (length a) - length a) with 1 by lia.
  rewrite skipn_all2 by lia. reflexivity.
Qed.

Definition sumf {A} (f : A -> nat) (l : list A) : nat := list_sum (map f l).
Lemma sumf_app : forall A (f : A -> nat) a b, sumf f (a ++ b) = sumf f a + sumf f b.
Proof. intros. unfold sumf. now rewrite map_app, list_sum_app. Qed.
Lemma sumf_cons : forall A (f : A -> nat) x b, sumf f (x :: b) = f x + sumf f b.
Proof. reflexivity. Qed.
Lemma sumf_nil : forall A (f : A -> nat), sumf f [] = 0.
Proof. reflexivity. Qed.
Lemma sumf_set : forall (f : hst -> nat) l i h h', nth_error l i = Some h -> sumf f (set_h l i h') + f h = sumf f l + f h'.
Proof.
  intros f l i h h' E. destruct (set_h_split _ _ _ E) as (a & b & -> & _ & SE). rewrite SE.
  rewrite !sumf_app, !sumf_cons. lia.
Qed.
Lemma forallb_set : forall (f : hst -> bool) l i h h', nth_error l i = Some h ->
  forallb f (set_h l i h') = true <-> (f h' = true /\ forall j x, j <> i -> nth_error l j = Some x -> f x = true).
Proof.
  intros f l i h h' E. destruct (set_h_split _ _ _ E) as (a & b & -> & L & SE). rewrite SE. rewrite forallb_app. cbn [forallb].
  rewrite !andb_true_iff, !forallb_forall. split.
  - intros (A & H & B). split; [exact H|]. intros j x J X. subst i.
    destruct (Nat.lt_ge_cases j (length a)) as [Lt|Ge].
    + rewrite nth_error_app1 in X by exact Lt. apply A. eapply nth_error_In; exact X.
    + rewrite nth_error_app2 in X by exact Ge. destruct (j - length a) as [|k] eqn:K; [lia|]. cbn in X. apply B. eapply nth_error_In; exact X.
  - intros (H & G). split; [|split; [exact H|]].
    + intros x I. apply In_nth_error in I. destruct I as [j X]. apply (G j).
      * assert (j < length a) by (apply nth_error_Some; congruence). lia.
      * rewrite nth_error_app1; [exact X|]. apply nth_error_Some. congruence.
    + intros x I. apply In_nth_error in I. destruct I as [j X]. apply (G (length a + S j)).
      * lia.
      * rewrite nth_error_app2 by lia. replace (length a + S j - length a) with (S j) by lia. exact X.
Qed.
Lemma nth_set_same : forall l i h h', nth_error l i = Some h -> nth_error (set_h l i h') i = Some h'.
Proof.
  intros l i h h' E. destruct (set_h_split _ _ _ E) as (a & b & -> & L & SE). rewrite SE. subst i.
  rewrite nth_error_app2 by lia. now rewrite Nat.sub_diag.
Qed.
Lemma nth_set_other : forall l i h h' j, nth_error l i = Some h -> j <> i -> nth_error (set_h l i h') j = nth_error l j.
Proof.
  intros l i h h' j E J. destruct (set_h_split _ _ _ E) as (a & b & -> & L & SE). rewrite SE. subst i.
  destruct (Nat.lt_ge_cases j (length a)) as [Lt|Ge].
  - now rewrite !nth_error_app1 by exact Lt.
  - rewrite !nth_error_app2 by exact Ge. destruct (j - length a) as [|k] eqn:K; [lia|]. reflexivity.
Qed.
Lemma in_set : forall l i h h' x, nth_error l i = Some h -> In x (set_h l i h') -> x = h' \/ In x l.
Proof.
  intros l i h h' x E I. destruct (set_h_split _ _ _ E) as (a & b & -> & _ & SE). rewrite SE in I.
  apply in_app_iff in I. destruct I as [I|[I|I]]; [right; apply in_app_iff; now left| now left |right; apply in_app_iff; right; now right].
Qed.

(** ** The counters *)
Definition tcount (m : nat) (t : task) : nat := match t with TWrite k n => if Nat.eqb k m then n else 0 | TRecover _ => 0 end.
Definition hcount (m : nat) (h : hpst) : nat := match h with HpRun t _ => tcount m t | _ => 0 end.
Definition lcount (m : nat) (l : lpst) : nat := match l with LpWrite k n _ _ => if Nat.eqb k m then n else 0 | _ => 0 end.
Definition pcount (m : nat) (h : hst) : nat := match h with HPush k _ => if Nat.eqb k m then 1 else 0 | _ => 0 end.

Definition counted (c : cfg) : Prop := forall m,
  length (pend (md c m)) = cnt (md c m) + sumf (tcount m) (que c) + hcount m (hpx c) + lcount m (lpx c) + sumf (pcount m) (hs c) + lost c m.
Definition ordered (c : cfg) : Prop := forall m, made c m = disk (md c m) ++ pend (md c m).

Ltac proj := cbn [hs md que hpx lpx mainx senders ddl uaf acked done lost next with_h with_md with_q with_lp with_main with_lost with_ddl pend cnt disk iffy setcnt set_iffy flush] in *.
Ltac sinv H := injection H as <-; proj.

Lemma upd_same : forall A (f : nat -> A) m x, upd f m x m = x.
Proof. intros. unfold upd. now rewrite Nat.eqb_refl. Qed.
Lemma upd_other : forall A (f : nat -> A) m x k, k <> m -> upd f m x k = f k.
Proof. intros A f m x k D. unfold upd. apply Nat.eqb_neq in D. now rewrite D. Qed.
Lemma made_app : forall c m k x l, done c = l ++ [(k, x)] -> made c m = map snd (filter (fun p => Nat.eqb (fst p) m) l) ++ if Nat.eqb k m then [x] else [].
Proof.
  intros c m k x l E. unfold made. rewrite E, filter_app, map_app. cbn [filter fst]. destruct (Nat.eqb k m); reflexivity.
Qed.
Lemma flush_id : forall d n, disk d ++ firstn n (pend d) ++ skipn n (pend d) = disk d ++ pend d.
Proof. intros. now rewrite firstn_skipn. Qed.

(** one task: what it does to the counters *)
Lemma run_task_fields : forall c t ok c' back, run_task c t ok = (c', back) ->
  hs c' = hs c /\ que c' = que c /\ hpx c' = hpx c /\ lpx c' = lpx c /\ mainx c' = mainx c /\ senders c' = senders c /\ ddl c' = ddl c
  /\ uaf c' = uaf c /\ acked c' = acked c /\ done c' = done c /\ lost c' = lost c /\ next c' = next c /\ (forall m, cnt (md c' m) = cnt (md c m)).
Proof.
  intros c t ok c' back E. destruct t as [m n|m]; cbn [run_task] in E.
  - destruct (iffy (md c m)); [injection E as <- <-; repeat (split; [reflexivity|]); reflexivity|].
    destruct (Nat.eqb n 0); [injection E as <- <-; repeat (split; [reflexivity|]); reflexivity|].
    destruct ok; injection E as <- <-; proj; repeat (split; [reflexivity|]); intros k; unfold upd; destruct (Nat.eqb_spec k m); subst; reflexivity.
  - destruct ok; injection E as <- <-; proj; repeat (split; [reflexivity|]); intros k; try reflexivity.
    unfold upd; destruct (Nat.eqb_spec k m); subst; reflexivity.
Qed.
Lemma run_task_counts : forall c t ok c' back, run_task c t ok = (c', back) -> (forall m, tcount m t <= length (pend (md c m))) ->
  forall m, length (pend (md c' m)) + tcount m t = length (pend (md c m)) + sumf (tcount m) back
         /\ disk (md c' m) ++ pend (md c' m) = disk (md c m) ++ pend (md c m).
Proof.
  intros c t ok c' back E LE m. destruct t as [k n|k]; cbn [run_task] in E.
  - specialize (LE m). cbn [tcount] in *.
    destruct (iffy (md c k)); [injection E as <- <-; rewrite sumf_cons, sumf_nil; cbn [tcount]; split; [lia|reflexivity]|].
    destruct (Nat.eqb_spec n 0) as [->|NZ]; [injection E as <- <-; rewrite sumf_nil; split; [destruct (Nat.eqb k m); lia|reflexivity]|].
    destruct ok; injection E as <- <-; proj.
    + rewrite sumf_nil. unfold upd. destruct (Nat.eqb_spec m k) as [->|D].
      * rewrite Nat.eqb_refl in *. proj. rewrite skipn_length. split; [lia|]. rewrite <- app_assoc. now rewrite firstn_skipn.
      * destruct (Nat.eqb_spec k m); [congruence|]. split; [lia|reflexivity].
    + rewrite !sumf_cons, sumf_nil. cbn [tcount]. unfold upd. destruct (Nat.eqb_spec m k) as [->|D]; proj; split; try lia; reflexivity.
  - cbn [tcount]. destruct ok; injection E as <- <-; proj; rewrite ?sumf_cons, ?sumf_nil; cbn [tcount];
      unfold upd; try (destruct (Nat.eqb_spec m k) as [->|D]; proj); split; try lia; reflexivity.
Qed.

Section S.
Variables max nm : nat.
Notation step := (sstep max nm).

Ltac hcase H i := match type of H with match nth_error (hs ?c) i with _ => _ end = _ =>
  let h := fresh "h" in let N := fresh "N" in destruct (nth_error (hs c) i) as [h|] eqn:N; [destruct h; try discriminate H | discriminate H] end.
Ltac sets N := repeat match goal with |- context [sumf ?f (set_h ?l ?i ?h')] =>
  let P := fresh "P" in pose proof (sumf_set f l i _ h' N) as P; cbn [pcount] in P; revert P; generalize (sumf f (set_h l i h')); intros ? P end.

Lemma step_counted : forall c l c', counted c -> ordered c -> step c l = Some c' -> counted c' /\ ordered c'.
Proof.
  intros c l c' C O H. destruct l; cbn [sstep] in H.
  - destruct (mainx c); try discriminate H. sinv H. split; [|exact O]. intros m. proj. rewrite sumf_app, sumf_cons, sumf_nil. cbn [pcount]. rewrite (C m). lia.
  - hcase H i. destruct (Nat.ltb m nm); [|discriminate H]. sinv H. split; [|exact O]. intros k. proj. pose proof (C k). sets N. lia.
  - hcase H i. destruct (iffy (md c m)).
    + sinv H. split; [|exact O]. intros k. proj. pose proof (C k). sets N. lia.
    + sinv H. split; intros k; proj.
      * pose proof (C k). sets N. unfold upd. destruct (Nat.eqb_spec k m) as [->|D]; proj.
        -- rewrite Nat.eqb_refl in *. rewrite app_length. cbn [length]. lia.
        -- destruct (Nat.eqb_spec m k); [congruence|]. lia.
      * erewrite made_app by reflexivity. pose proof (O k) as Ok. unfold made in Ok. rewrite Ok. unfold upd.
        destruct (Nat.eqb_spec k m) as [->|D]; proj.
        -- rewrite Nat.eqb_refl. now rewrite app_assoc.
        -- destruct (Nat.eqb_spec m k); [congruence|]. now rewrite app_nil_r.
  - hcase H i. sinv H. split; intros k; proj.
    + pose proof (C k). sets N. unfold upd. destruct (Nat.eqb_spec k m) as [->|D]; proj.
      * rewrite Nat.eqb_refl in *. lia.
      * destruct (Nat.eqb_spec m k); [congruence|]. lia.
    + unfold upd. destruct (Nat.eqb_spec k m) as [->|D]; proj; apply O.
  - hcase H i. destruct (Nat.leb max hint).
    + destruct (hp_alive c).
      * sinv H. split; intros k; proj.
        -- pose proof (C k). sets N. rewrite sumf_app, sumf_cons, sumf_nil. cbn [tcount]. unfold upd. destruct (Nat.eqb_spec k m) as [->|D]; proj.
           ++ rewrite Nat.eqb_refl in *. lia.
           ++ destruct (Nat.eqb_spec m k); [congruence|]. lia.
        -- unfold upd. destruct (Nat.eqb_spec k m) as [->|D]; proj; apply O.
      * sinv H. split; intros k; proj.
        -- pose proof (C k). sets N. unfold upd. destruct (Nat.eqb_spec k m) as [->|D]; proj; lia.
        -- unfold upd. destruct (Nat.eqb_spec k m) as [->|D]; proj; apply O.
    + sinv H. split; [|exact O]. intros k. proj. pose proof (C k). sets N. lia.
  - hcase H i. sinv H. split; [|exact O]. intros k. proj. pose proof (C k). sets N. lia.
  - hcase H i. sinv H. split; [|exact O]. intros k. proj. pose proof (C k). sets N. lia.
  - destruct (existsb (Nat.eqb i) (ddl c)); [|discriminate H]. sinv H. split; [exact C|exact O].
  - destruct (existsb (Nat.eqb i) (ddl c)); [|discriminate H]. injection H as <-.
    destruct (nth_error (hs c) i) as [h|] eqn:N; [|split; [exact C|exact O]].
    destruct h; try (split; [exact C|exact O]).
    split; [|exact O]. intros k. proj. pose proof (C k). sets N. lia.
  - hcase H i; (destruct (signalled c); [|discriminate H]); sinv H; (split; [|exact O]); intros k; proj; pose proof (C k); sets N; lia.
  - hcase H i. sinv H. split; [|exact O]. intros k. proj. pose proof (C k). sets N. lia.
  - destruct (mainx c); try discriminate H. sinv H. split; [exact C|exact O].
  - destruct (mainx c); try discriminate H. destruct (senders c); [discriminate H|]. sinv H. split; [exact C|exact O].
  - destruct (mainx c); try discriminate H. destruct (forallb over (hs c)); [|discriminate H]. sinv H. split; [exact C|exact O].
  - destruct (mainx c), (hpx c), (lpx c), (ddl c); try discriminate H; sinv H; (split; [exact C|exact O]).
  - destruct (que c) as [|t q] eqn:Q; [discriminate H|]. destruct (hpx c) eqn:HP; try discriminate H; sinv H; (split; [|exact O]);
      intros k; proj; pose proof (C k) as Ck; rewrite Q, HP, sumf_cons in Ck; cbn [hcount] in *; lia.
  - destruct (hpx c) eqn:HP; try discriminate H. destruct (signalled c); [|discriminate H]. sinv H. split; [|exact O].
    intros k; proj; pose proof (C k) as Ck; rewrite HP in Ck; cbn [hcount] in *; lia.
  - destruct (hpx c) as [|t dr| |] eqn:HP; try discriminate H. destruct (run_task c t ok) as [c1 back] eqn:R.
    pose proof (run_task_fields _ _ _ _ _ R) as (F1 & F2 & F3 & F4 & F5 & F6 & F7 & F8 & F9 & F10 & F11 & F12 & F13).
    assert (LE : forall m, tcount m t <= length (pend (md c m))).
    { intros m. pose proof (C m) as Cm. rewrite HP in Cm. cbn [hcount] in Cm. lia. }
    pose proof (run_task_counts _ _ _ _ _ R LE) as RC. sinv H. split; intros k; proj.
    + rewrite F1, F4, F11, F13, sumf_app. pose proof (C k) as Ck. rewrite HP in Ck. cbn [hcount] in Ck. destruct (RC k) as [R1 _].
      destruct dr; cbn [hcount]; lia.
    + destruct (RC k) as [_ R2]. rewrite R2. unfold made. proj. rewrite F10. apply O.
  - destruct (que c) as [|t q] eqn:Q; [|discriminate H]. destruct (hpx c) eqn:HP; try discriminate H; sinv H; (split; [|exact O]);
      intros k; proj; pose proof (C k) as Ck; rewrite Q, HP in Ck; cbn [hcount] in *; lia.
  - destruct (lpx c) eqn:LP; try discriminate H. sinv H. split; [|exact O].
    intros k; proj; pose proof (C k) as Ck; rewrite LP in Ck; cbn [lcount] in *; lia.
  - destruct (lpx c) eqn:LP; try discriminate H. destruct (signalled c); [|discriminate H]. sinv H. split; [|exact O].
    intros k; proj; pose proof (C k) as Ck; rewrite LP in Ck; cbn [lcount] in *; lia.
  - destruct (lpx c) as [|[|m rest] fin| | |] eqn:LP; try discriminate H. sinv H. split; intros k; proj.
    + pose proof (C k) as Ck; rewrite LP in Ck; cbn [lcount] in *. unfold upd. destruct (Nat.eqb_spec k m) as [->|D]; proj.
      * rewrite Nat.eqb_refl. lia.
      * destruct (Nat.eqb_spec m k); [congruence|]. lia.
    + unfold upd. destruct (Nat.eqb_spec k m) as [->|D]; proj; apply O.
  - destruct (lpx c) as [| |m n rest fin| |] eqn:LP; try discriminate H. destruct (run_task c (TWrite m n) ok) as [c1 back] eqn:R.
    pose proof (run_task_fields _ _ _ _ _ R) as (F1 & F2 & F3 & F4 & F5 & F6 & F7 & F8 & F9 & F10 & F11 & F12 & F13).
    assert (LE : forall k, tcount k (TWrite m n) <= length (pend (md c k))).
    { intros k. pose proof (C k) as Ck. rewrite LP in Ck. cbn [lcount] in Ck. cbn [tcount]. lia. }
    pose proof (run_task_counts _ _ _ _ _ R LE) as RC.
    assert (OO : ordered c1).
    { intros k. destruct (RC k) as [_ R2]. rewrite R2. unfold made. rewrite F10. apply O. }
    assert (RB : back = [] \/ sumf (tcount m) back = n).
    { cbn [run_task] in R. destruct (iffy (md c m)); [injection R as _ <-; right; rewrite sumf_cons, sumf_nil; cbn [tcount]; rewrite Nat.eqb_refl; lia|].
      destruct (Nat.eqb n 0); [injection R as _ <-; now left|]. destruct ok; injection R as _ <-; [now left|right].
      rewrite !sumf_cons, sumf_nil; cbn [tcount]; rewrite Nat.eqb_refl; lia. }
    destruct back as [|b bs].
    + sinv H. split; [|exact OO]. intros k. proj. rewrite F1, F2, F3, F11, F13. destruct (RC k) as [R1 _]. pose proof (C k) as Ck.
      rewrite LP in Ck. cbn [lcount tcount] in *. rewrite sumf_nil in R1. lia.
    + destruct RB as [RB|RB]; [discriminate RB|]. destruct (hp_alive c).
      * sinv H. split; [|exact OO]. intros k. proj. rewrite F1, F11, F13, sumf_app. destruct (RC k) as [R1 _]. pose proof (C k) as Ck.
        rewrite LP in Ck. cbn [lcount tcount] in *. lia.
      * sinv H. split; [|exact OO]. intros k. proj. rewrite F1, F2, F3, F11, F13. destruct (RC k) as [R1 _]. pose proof (C k) as Ck.
        rewrite LP in Ck. cbn [lcount tcount] in *. unfold upd. destruct (Nat.eqb_spec k m) as [->|D].
        -- rewrite Nat.eqb_refl in *. lia.
        -- destruct (Nat.eqb_spec m k); [congruence|].
           assert (sumf (tcount k) (b :: bs) = 0); [|lia].
           cbn [run_task] in R. clear - R n0. destruct (iffy (md c m)); [injection R as _ <- <-; rewrite sumf_cons, sumf_nil; cbn [tcount]; destruct (Nat.eqb_spec m k); [congruence|reflexivity]|].
           destruct (Nat.eqb n 0); [discriminate R|]. destruct ok; [discriminate R|]. injection R as _ <- <-.
           rewrite !sumf_cons, sumf_nil; cbn [tcount]; destruct (Nat.eqb_spec m k); [congruence|reflexivity].
  - destruct (lpx c) as [|[|m rest] fin| | |] eqn:LP; try discriminate H. sinv H. split; [|exact O].
    intros k; proj; pose proof (C k) as Ck; rewrite LP in Ck; cbn [lcount] in *. destruct fin; cbn [lcount]; lia.
Qed.
(** ** The tasks *)
Definition late (m : mainst) : bool := match m with MWait | MJoin | MClosed => true | _ => false end.
Record shape (c : cfg) : Prop := mk_shape {
  sh_q : hpx c = HpExit -> que c = [];
  sh_over : (mainx c = MJoin \/ mainx c = MClosed) -> forallb over (hs c) = true;
  sh_closed : mainx c = MClosed -> hpx c = HpExit /\ (lpx c = LpExit \/ lpx c = LpDead) /\ ddl c = [];
  sh_sig : senders c = 0 <-> late (mainx c) = true
}.
Definition known_h (c : cfg) (h : hst) : Prop :=
  match h with
  | HRun m x => m < nm
  | HPush m x | HFull m x _ => m < nm /\ In (m, x) (done c)
  | HAnswer x => exists m, In (m, x) (done c)
  | _ => True
  end.
Definition known (c : cfg) : Prop :=
  (forall h, In h (hs c) -> known_h c h) /\ (forall x, In x (acked c) -> exists m, In (m, x) (done c)) /\ (forall m x, In (m, x) (done c) -> m < nm).

Lemma over_set_absurd : forall l i h, nth_error l i = Some h -> over h = false -> forallb over l = true -> False.
Proof. intros l i h N O F. rewrite forallb_forall in F. rewrite (F h) in O; [discriminate O|]. eapply nth_error_In; exact N. Qed.
Lemma over_set_keep : forall l i h h', nth_error l i = Some h -> over h = false -> forallb over l = true -> forallb over (set_h l i h') = true.
Proof. intros l i h h' N O F. destruct (over_set_absurd _ _ _ N O F). Qed.

Lemma step_shape : forall c l c', shape c -> step c l = Some c' -> shape c'.
Proof.
  intros c l c' [Q O CL SG] H. destruct l; cbn [sstep] in H.
  - destruct (mainx c) eqn:M; try discriminate H. sinv H. constructor; proj; try assumption.
    intros [E|E]; discriminate E.
  - hcase H i. destruct (Nat.ltb m nm); [|discriminate H]. sinv H. constructor; proj; try assumption.
    intros E. apply (over_set_keep _ _ _ _ N eq_refl). auto.
  - hcase H i. destruct (iffy (md c m)); sinv H; (constructor; proj; try assumption); intros E; apply (over_set_keep _ _ _ _ N eq_refl); auto.
  - hcase H i. sinv H; (constructor; proj; try assumption); intros E; apply (over_set_keep _ _ _ _ N eq_refl); auto.
  - hcase H i. destruct (Nat.leb max hint).
    + destruct (hp_alive c) eqn:HA.
      * sinv H; (constructor; proj; try assumption).
        -- unfold hp_alive in HA. intros E. rewrite E in HA. discriminate HA.
        -- intros E; apply (over_set_keep _ _ _ _ N eq_refl); auto.
      * sinv H; (constructor; proj; try assumption). intros E; apply (over_set_keep _ _ _ _ N eq_refl); auto.
    + sinv H; (constructor; proj; try assumption); intros E; apply (over_set_keep _ _ _ _ N eq_refl); auto.
  - hcase H i. sinv H; (constructor; proj; try assumption); intros E; apply (over_set_keep _ _ _ _ N eq_refl); auto.
  - hcase H i. sinv H; (constructor; proj; try assumption).
    + intros E; apply (over_set_keep _ _ _ _ N eq_refl); auto.
    + intros E. destruct (over_set_absurd _ _ _ N eq_refl (O (or_intror E))).
  - destruct (existsb (Nat.eqb i) (ddl c)); [|discriminate H]. sinv H. constructor; proj; assumption.
  - destruct (existsb (Nat.eqb i) (ddl c)) eqn:X; [|discriminate H]. injection H as <-.
    assert (CL' : mainx c = MClosed -> False).
    { intros E. destruct (CL E) as (_ & _ & D). rewrite D in X. discriminate X. }
    destruct (nth_error (hs c) i) as [h|] eqn:N; [|constructor; proj; try assumption; intros E; destruct (CL' E)].
    destruct h; constructor; proj; try assumption; try (intros E; destruct (CL' E)).
    intros E; apply (over_set_keep _ _ _ _ N eq_refl); auto.
  - hcase H i; (destruct (signalled c); [|discriminate H]); sinv H; (constructor; proj; try assumption); intros E; apply (over_set_keep _ _ _ _ N eq_refl); auto.
  - hcase H i. sinv H; (constructor; proj; try assumption); intros E; apply (over_set_keep _ _ _ _ N eq_refl); auto.
  - destruct (mainx c) eqn:M; try discriminate H. sinv H. constructor; proj; try assumption; try (intros [E|E]; congruence); try (intros E; congruence); exact SG.
  - destruct (mainx c) eqn:M; try discriminate H. destruct (senders c) as [|s] eqn:SS; [discriminate H|]. sinv H. constructor; proj; try assumption.
    + destruct (Nat.eqb s 0); intros [E|E]; discriminate E.
    + destruct (Nat.eqb s 0); intros E; discriminate E.
    + destruct (Nat.eqb_spec s 0) as [Z|Z]; cbn [late]; split; intros E; try reflexivity; try assumption; [congruence|discriminate E].
  - destruct (mainx c) eqn:M; try discriminate H. destruct (forallb over (hs c)) eqn:F; [|discriminate H]. sinv H. constructor; proj; try assumption.
    + intros _. exact F.
    + intros E; discriminate E.
  - destruct (mainx c) eqn:M, (hpx c) eqn:HP, (lpx c) eqn:LP, (ddl c) eqn:DD; try discriminate H; sinv H; (constructor; proj; try assumption); rewrite ?HP, ?LP, ?DD; auto.
  - destruct (que c) as [|t q] eqn:QE; [discriminate H|]. destruct (hpx c) eqn:HP; try discriminate H; sinv H; (constructor; proj; try assumption);
      try (intros E; discriminate E); intros E; destruct (CL E) as (X & _); discriminate X.
  - destruct (hpx c) eqn:HP; try discriminate H. destruct (signalled c); [|discriminate H]. sinv H. constructor; proj; try assumption; try (intros E; discriminate E).
    intros E; destruct (CL E) as (X & _); discriminate X.
  - destruct (hpx c) as [|t dr| |] eqn:HP; try discriminate H. destruct (run_task c t ok) as [c1 back] eqn:R.
    pose proof (run_task_fields _ _ _ _ _ R) as (F1 & F2 & F3 & F4 & F5 & F6 & F7 & F8 & F9 & F10 & F11 & F12 & F13).
    sinv H. constructor; proj; rewrite ?F1, ?F4, ?F5, ?F6, ?F7; try assumption.
    + destruct dr; intros E; discriminate E.
    + intros E; destruct (CL E) as (X & _); discriminate X.
  - destruct (que c) as [|t q] eqn:QE; [|discriminate H]. destruct (hpx c) eqn:HP; try discriminate H; sinv H; (constructor; proj; try assumption); auto.
    intros E; destruct (CL E) as (X & _); discriminate X.
  - destruct (lpx c) eqn:LP; try discriminate H. sinv H. constructor; proj; try assumption. intros E; destruct (CL E) as (_ & [X|X] & _); discriminate X.
  - destruct (lpx c) eqn:LP; try discriminate H. destruct (signalled c); [|discriminate H]. sinv H. constructor; proj; try assumption. intros E; destruct (CL E) as (_ & [X|X] & _); discriminate X.
  - destruct (lpx c) as [|[|m rest] fin| | |] eqn:LP; try discriminate H. sinv H. constructor; proj; try assumption. intros E; destruct (CL E) as (_ & [X|X] & _); discriminate X.
  - destruct (lpx c) as [| |m n rest fin| |] eqn:LP; try discriminate H. destruct (run_task c (TWrite m n) ok) as [c1 back] eqn:R.
    pose proof (run_task_fields _ _ _ _ _ R) as (F1 & F2 & F3 & F4 & F5 & F6 & F7 & F8 & F9 & F10 & F11 & F12 & F13).
    assert (NC : mainx c = MClosed -> False) by (intros E; destruct (CL E) as (_ & [X|X] & _); discriminate X).
    destruct back as [|b bs].
    + sinv H. constructor; proj; rewrite ?F1, ?F2, ?F3, ?F5, ?F6, ?F7; try assumption. intros E; destruct (NC E).
    + destruct (hp_alive c) eqn:HA.
      * sinv H. constructor; proj; rewrite ?F1, ?F2, ?F3, ?F5, ?F6, ?F7; try assumption; [|intros E; destruct (NC E)].
        unfold hp_alive in HA. intros E. rewrite E in HA. discriminate HA.
      * sinv H. constructor; proj; rewrite ?F1, ?F2, ?F3, ?F5, ?F6, ?F7; try assumption. intros E; destruct (NC E).
  - destruct (lpx c) as [|[|m rest] fin| | |] eqn:LP; try discriminate H. sinv H. constructor; proj; try assumption. intros E; destruct (CL E) as (_ & [X|X] & _); discriminate X.
Qed.

Lemma known_mono : forall c c' h, known_h c h -> (forall p, In p (done c) -> In p (done c')) -> known_h c' h.
Proof.
  intros c c' h K M. destruct h; cbn [known_h] in *; auto.
  - destruct K as [A B]. auto.
  - destruct K as [A B]. auto.
  - destruct K as [m A]. exists m. auto.
Qed.
(** the handlers of [c'] are those of [c] with handler [i] replaced *)
Lemma known_set : forall c c' i h h', known c -> nth_error (hs c) i = Some h -> hs c' = set_h (hs c) i h' -> acked c' = acked c -> done c' = done c ->
  known_h c h' -> known c'.
Proof.
  intros c c' i h h' (K1 & K2 & K3) N HS A D KH. split; [|split].
  - intros x I. rewrite HS in I. apply (known_mono c); [|intros p; rewrite D; exact (fun X => X)].
    destruct (in_set _ _ _ _ _ N I) as [->|I']; [exact KH|exact (K1 _ I')].
  - intros x I. rewrite A in I. rewrite D. exact (K2 _ I).
  - intros m x. rewrite D. apply K3.
Qed.
Lemma known_same : forall c c', known c -> hs c' = hs c -> acked c' = acked c -> done c' = done c -> known c'.
Proof.
  intros c c' (K1 & K2 & K3) HS A D. split; [|split].
  - intros x I. rewrite HS in I. apply (known_mono c); [exact (K1 _ I)|intros p; rewrite D; exact (fun X => X)].
  - intros x I. rewrite A in I. rewrite D. exact (K2 _ I).
  - intros m x. rewrite D. apply K3.
Qed.

Lemma step_known : forall c l c', known c -> step c l = Some c' -> known c'.
Proof.
  intros c l c' K H. pose proof K as (K1 & K2 & K3). destruct l; cbn [sstep] in H.
  - destruct (mainx c) eqn:M; try discriminate H. sinv H. split; [|split; proj; assumption]. proj. intros h I.
    apply in_app_iff in I. destruct I as [I|[<-|[]]]; [|exact Logic.I]. apply (known_mono c); [exact (K1 _ I)|auto].
  - hcase H i. destruct (Nat.ltb_spec m nm) as [L|]; [|discriminate H]. sinv H. eapply (known_set c); try reflexivity; try eassumption.
  - hcase H i. pose proof (K1 _ (nth_error_In _ _ N)) as KH. cbn [known_h] in KH. destruct (iffy (md c m)).
    + sinv H. eapply (known_set c); try reflexivity; try eassumption; try exact Logic.I.
    + sinv H. split; [|split]; proj.
      * intros h I. destruct (in_set _ _ _ _ _ N I) as [->|I'].
        -- cbn [known_h]. proj. split; [exact KH|]. apply in_app_iff. right. now left.
        -- apply (known_mono c); [exact (K1 _ I')|]. proj. intros p P. apply in_app_iff. now left.
      * intros x I. destruct (K2 _ I) as [k KI]. exists k. apply in_app_iff. now left.
      * intros k x I. apply in_app_iff in I. destruct I as [I|[I|[]]]; [exact (K3 _ _ I)|]. injection I as <- <-. exact KH.
  - hcase H i. pose proof (K1 _ (nth_error_In _ _ N)) as KH. cbn [known_h] in KH. sinv H. eapply (known_set c); try reflexivity; try eassumption.
  - hcase H i. pose proof (K1 _ (nth_error_In _ _ N)) as KH. cbn [known_h] in KH. destruct KH as [KM KI].
    destruct (Nat.leb max hint); [destruct (hp_alive c)|]; sinv H; (eapply (known_set c); try reflexivity; try eassumption); cbn [known_h]; eauto.
  - hcase H i. pose proof (K1 _ (nth_error_In _ _ N)) as KH. cbn [known_h] in KH. sinv H. split; [|split]; proj.
    + intros h I. destruct (in_set _ _ _ _ _ N I) as [->|I']; [exact Logic.I|]. apply (known_mono c); [exact (K1 _ I')|auto].
    + intros x I. apply in_app_iff in I. destruct I as [I|[<-|[]]]; [exact (K2 _ I)|exact KH].
    + exact K3.
  - hcase H i. sinv H. eapply (known_set c); try reflexivity; try eassumption; try exact Logic.I.
  - destruct (existsb (Nat.eqb i) (ddl c)); [|discriminate H]. sinv H. eapply (known_same c); try reflexivity; assumption.
  - destruct (existsb (Nat.eqb i) (ddl c)) eqn:X; [|discriminate H]. injection H as <-.
    destruct (nth_error (hs c) i) as [h|] eqn:N; [|eapply (known_same c); try reflexivity; assumption].
    destruct h; try (eapply (known_same c); try reflexivity; assumption).
    eapply (known_set c); try reflexivity; try eassumption; try exact Logic.I.
  - hcase H i; (destruct (signalled c); [|discriminate H]); sinv H; (eapply (known_set c); try reflexivity; try eassumption); try exact Logic.I.
  - hcase H i. sinv H. eapply (known_set c); try reflexivity; try eassumption; try exact Logic.I.
  - destruct (mainx c) eqn:M; try discriminate H. sinv H. eapply (known_same c); try reflexivity; assumption.
  - destruct (mainx c) eqn:M; try discriminate H. destruct (senders c) as [|s] eqn:SS; [discriminate H|]. sinv H. eapply (known_same c); try reflexivity; assumption.
  - destruct (mainx c) eqn:M; try discriminate H. destruct (forallb over (hs c)) eqn:F; [|discriminate H]. sinv H. eapply (known_same c); try reflexivity; assumption.
  - destruct (mainx c) eqn:M, (hpx c) eqn:HP, (lpx c) eqn:LP, (ddl c) eqn:DD; try discriminate H; sinv H; eapply (known_same c); try reflexivity; assumption.
  - destruct (que c) as [|t q] eqn:QE; [discriminate H|]. destruct (hpx c) eqn:HP; try discriminate H; sinv H; eapply (known_same c); try reflexivity; assumption.
  - destruct (hpx c) eqn:HP; try discriminate H. destruct (signalled c); [|discriminate H]. sinv H. eapply (known_same c); try reflexivity; assumption.
  - destruct (hpx c) as [|t dr| |] eqn:HP; try discriminate H. destruct (run_task c t ok) as [c1 back] eqn:R.
    pose proof (run_task_fields _ _ _ _ _ R) as (F1 & F2 & F3 & F4 & F5 & F6 & F7 & F8 & F9 & F10 & F11 & F12 & F13).
    sinv H. eapply (known_same c); proj; assumption.
  - destruct (que c) as [|t q] eqn:QE; [|discriminate H]. destruct (hpx c) eqn:HP; try discriminate H; sinv H; eapply (known_same c); try reflexivity; assumption.
  - destruct (lpx c) eqn:LP; try discriminate H. sinv H. eapply (known_same c); try reflexivity; assumption.
  - destruct (lpx c) eqn:LP; try discriminate H. destruct (signalled c); [|discriminate H]. sinv H. eapply (known_same c); try reflexivity; assumption.
  - destruct (lpx c) as [|[|m rest] fin| | |] eqn:LP; try discriminate H. sinv H. eapply (known_same c); try reflexivity; assumption.
  - destruct (lpx c) as [| |m n rest fin| |] eqn:LP; try discriminate H. destruct (run_task c (TWrite m n) ok) as [c1 back] eqn:R.
    pose proof (run_task_fields _ _ _ _ _ R) as (F1 & F2 & F3 & F4 & F5 & F6 & F7 & F8 & F9 & F10 & F11 & F12 & F13).
    destruct back as [|b bs]; [|destruct (hp_alive c)]; sinv H; eapply (known_same c); proj; assumption.
  - destruct (lpx c) as [|[|m rest] fin| | |] eqn:LP; try discriminate H. sinv H. eapply (known_same c); try reflexivity; assumption.
Qed.

(** ** Runs *)
Definition sound (c : cfg) : Prop := counted c /\ ordered c /\ shape c /\ known c.
Lemma sound_step : forall c l c', sound c -> step c l = Some c' -> sound c'.
Proof.
  intros c l c' (C & O & SH & K) H. destruct (step_counted _ _ _ C O H) as [C' O'].
  split; [exact C'|]. split; [exact O'|]. split; [exact (step_shape _ _ _ SH H)|exact (step_known _ _ _ K H)].
Qed.
Lemma sound_run : forall ls c c', sound c -> srun max nm c ls = Some c' -> sound c'.
Proof.
  induction ls as [|l ls IH]; intros c c' S0 H; cbn [srun] in H.
  - injection H as <-. exact S0.
  - destruct (step c l) as [c1|] eqn:E; [|discriminate H]. eapply IH; [|exact H]. eapply sound_step; eassumption.
Qed.
Lemma sound_init : forall k, sound (cfg0 k).
Proof.
  intros k. split; [intros m; reflexivity|]. split; [intros m; reflexivity|]. split.
  - constructor; cbn; try (intros E; discriminate E); try (intros [E|E]; discriminate E). split; intros E; discriminate E.
  - split; [intros h []|]. split; [intros x []|intros m x []].
Qed.
Lemma sound_reach : forall k c, reach max nm k c -> sound c.
Proof. intros k c [ls H]. exact (sound_run _ _ _ (sound_init k) H). Qed.

Lemma sumf_zero : forall A (f : A -> nat) l, (forall x, In x l -> f x = 0) -> sumf f l = 0.
Proof. intros A f l Z. induction l as [|x l IH]; [reflexivity|]. rewrite sumf_cons, (Z x), IH; auto; [intros; apply Z; now right|now left]. Qed.

(** what is in the file when the server has ended *)
Lemma closed_exact : forall c m, sound c -> mainx c = MClosed ->
  made c m = disk (md c m) ++ pend (md c m) /\ length (pend (md c m)) = cnt (md c m) + lost c m.
Proof.
  intros c m (C & O & SH & K) M. split; [apply O|]. rewrite (C m).
  destruct (sh_closed _ SH M) as (HP & LP & _). rewrite (sh_q _ SH HP), HP, sumf_nil.
  pose proof (sh_over _ SH (or_intror M)) as OV. rewrite forallb_forall in OV.
  rewrite (sumf_zero _ (pcount m) (hs c)).
  - destruct LP as [->| ->]; cbn [hcount lcount]; lia.
  - intros h I. apply OV in I. destruct h; cbn [over pcount] in *; try reflexivity; discriminate I.
Qed.

(** ** Runs that keep the rule *)
Definition tw (t : task) : bool := match t with TWrite _ _ => true | _ => false end.
Record calm (c : cfg) : Prop := mk_calm {
  ca_iffy : forall m, iffy (md c m) = false;
  ca_que : forallb tw (que c) = true;
  ca_hp : match hpx c with HpRun t _ => tw t = true | _ => True end;
  ca_lost : forall m, lost c m = 0;
  ca_quiet : winding c = true -> existsb busy (hs c) = false;
  ca_lp : match lpx c with
          | LpScan rest true | LpWrite _ _ rest true => forall m, m < nm -> In m rest \/ cnt (md c m) = 0
          | LpExit => forall m, m < nm -> cnt (md c m) = 0
          | LpDead => False
          | _ => True
          end
}.

Lemma busy_set : forall l i h h', nth_error l i = Some h -> busy h' = false -> existsb busy l = false -> existsb busy (set_h l i h') = false.
Proof.
  intros l i h h' N B E. destruct (existsb busy (set_h l i h')) eqn:X; [|reflexivity]. apply existsb_exists in X. destruct X as (x & I & XB).
  destruct (in_set _ _ _ _ _ N I) as [->|I']; [congruence|]. assert (existsb busy l = true); [|congruence]. apply existsb_exists. exists x; auto.
Qed.
Lemma busy_absurd : forall l i h, nth_error l i = Some h -> busy h = true -> existsb busy l = false -> False.
Proof. intros l i h N B E. assert (existsb busy l = true); [|congruence]. apply existsb_exists. exists h. split; [eapply nth_error_In; exact N|exact B]. Qed.

Lemma lp_winding : forall c, (match lpx c with LpScan _ true | LpWrite _ _ _ true | LpExit | LpDead => true | _ => false end) = true -> winding c = true.
Proof. intros c E. unfold winding. rewrite E. apply orb_true_r. Qed.
(** a step of handler [i] that touches neither executor nor model *)
Lemma calm_handler : forall c c' i h h', calm c -> nth_error (hs c) i = Some h -> hs c' = set_h (hs c) i h' -> busy h' = false ->
  (forall m, iffy (md c' m) = iffy (md c m)) -> (forall m, cnt (md c m) = 0 -> cnt (md c' m) = 0) -> forallb tw (que c') = true ->
  hpx c' = hpx c -> lpx c' = lpx c -> lost c' = lost c -> calm c'.
Proof.
  intros c c' i h h' [A B D E F G] N HS BH I CN Q HP LP L. constructor.
  - intros m. rewrite I. apply A.
  - exact Q.
  - rewrite HP. exact D.
  - rewrite L. exact E.
  - unfold winding. rewrite HP, LP, HS. intros W. eapply busy_set; [exact N|exact BH|]. exact (F W).
  - rewrite LP. destruct (lpx c) as [|rest [|]|? ? rest [|]| |]; try exact Logic.I; try contradiction; intros z Z; try (destruct (G z Z); auto); auto.
Qed.
Lemma calm_busy : forall c c' i h h', calm c -> nth_error (hs c) i = Some h -> busy h = true \/ winding c = false -> hs c' = set_h (hs c) i h' ->
  (forall m, iffy (md c' m) = iffy (md c m)) -> que c' = que c ->
  hpx c' = hpx c -> lpx c' = lpx c -> lost c' = lost c -> calm c'.
Proof.
  intros c c' i h h' [A B D E F G] N BW HS I Q HP LP L.
  assert (W : winding c = false).
  { destruct BW as [BW|W]; [|exact W]. destruct (winding c) eqn:W; [|reflexivity]. destruct (busy_absurd _ _ _ N BW (F eq_refl)). }
  constructor.
  - intros m. rewrite I. apply A.
  - rewrite Q. exact B.
  - rewrite HP. exact D.
  - rewrite L. exact E.
  - unfold winding. rewrite HP, LP. fold (winding c). intros X. rewrite W in X. discriminate X.
  - rewrite LP. unfold winding in W. apply orb_false_iff in W. destruct W as [_ W].
    destruct (lpx c) as [|rest [|]|? ? rest [|]| |]; try exact Logic.I; discriminate W.
Qed.
Lemma calm_same : forall c c', calm c -> hs c' = hs c -> md c' = md c -> que c' = que c -> hpx c' = hpx c -> lpx c' = lpx c -> lost c' = lost c -> calm c'.
Proof.
  intros c c' [A B D E F G] HS MD Q HP LP L. constructor.
  - rewrite MD. exact A.
  - rewrite Q. exact B.
  - rewrite HP. exact D.
  - rewrite L. exact E.
  - unfold winding. rewrite HP, LP, HS. exact F.
  - rewrite LP, MD. exact G.
Qed.

Lemma step_calm : forall c l c', calm c -> obeys l = true -> rule c l = true -> step c l = Some c' -> calm c'.
Proof.
  intros c l c' K OB RU H. pose proof K as [A B D E F G]. destruct l; cbn [sstep] in H.
  - destruct (mainx c) eqn:M; try discriminate H. sinv H. constructor; proj; try assumption.
    intros W. rewrite existsb_app. rewrite (F W). reflexivity.
  - hcase H i. destruct (Nat.ltb m nm); [|discriminate H]. sinv H. cbn [rule] in RU. apply negb_true_iff in RU.
    eapply (calm_busy c); try reflexivity; try eassumption. now right.
  - hcase H i. destruct (iffy (md c m)) eqn:IF; [rewrite A in IF; discriminate IF|]. sinv H. eapply (calm_busy c); try reflexivity; try eassumption; [now left|].
    proj. intros k. unfold upd. destruct (Nat.eqb_spec k m) as [->|]; proj; rewrite ?IF; reflexivity.
  - hcase H i. sinv H. eapply (calm_busy c); try reflexivity; try eassumption; [now left|].
    proj. intros k. unfold upd. destruct (Nat.eqb_spec k m) as [->|]; proj; reflexivity.
  - hcase H i. destruct (Nat.leb max hint).
    + destruct (hp_alive c) eqn:HA.
      * sinv H. eapply (calm_handler c); try reflexivity; try eassumption; try reflexivity; proj.
        -- intros k. unfold upd. destruct (Nat.eqb_spec k m) as [->|]; proj; reflexivity.
        -- intros k Z. unfold upd. destruct (Nat.eqb_spec k m) as [->|]; proj; [reflexivity|exact Z].
        -- rewrite forallb_app, B. reflexivity.
      * exfalso. unfold hp_alive in HA. destruct (hpx c) eqn:HP; try discriminate HA.
        eapply busy_absurd; [exact N|reflexivity|]. apply F. unfold winding. rewrite HP. reflexivity.
    + sinv H. eapply (calm_handler c); try reflexivity; try eassumption; try reflexivity; auto.
  - hcase H i. sinv H. eapply (calm_handler c); try reflexivity; try eassumption; try reflexivity; auto.
  - hcase H i. sinv H. eapply (calm_handler c); try reflexivity; try eassumption; try reflexivity; auto.
  - destruct (existsb (Nat.eqb i) (ddl c)); [|discriminate H]. sinv H. eapply (calm_same c); try reflexivity; assumption.
  - destruct (existsb (Nat.eqb i) (ddl c)) eqn:X; [|discriminate H]. injection H as <-.
    destruct (nth_error (hs c) i) as [h|] eqn:N; [|eapply (calm_same c); try reflexivity; assumption].
    destruct h; try (eapply (calm_same c); try reflexivity; assumption).
    eapply (calm_handler c); try reflexivity; try eassumption; try reflexivity; auto.
  - hcase H i; (destruct (signalled c); [|discriminate H]); sinv H; eapply (calm_handler c); try reflexivity; try eassumption; try reflexivity; auto.
  - hcase H i. sinv H. eapply (calm_handler c); try reflexivity; try eassumption; try reflexivity; auto.
  - destruct (mainx c) eqn:M; try discriminate H. sinv H. eapply (calm_same c); try reflexivity; assumption.
  - destruct (mainx c) eqn:M; try discriminate H. destruct (senders c) as [|s] eqn:SS; [discriminate H|]. sinv H. eapply (calm_same c); try reflexivity; assumption.
  - destruct (mainx c) eqn:M; try discriminate H. destruct (forallb over (hs c)); [|discriminate H]. sinv H. eapply (calm_same c); try reflexivity; assumption.
  - destruct (mainx c) eqn:M, (hpx c) eqn:HP, (lpx c) eqn:LP, (ddl c) eqn:DD; try discriminate H; sinv H; (eapply (calm_same c); try reflexivity; assumption).
  - destruct (que c) as [|t q] eqn:QE; [discriminate H|]. cbn [forallb] in B. apply andb_true_iff in B. destruct B as [B1 B2].
    destruct (hpx c) eqn:HP; try discriminate H; sinv H; constructor; proj; try assumption; intros W; apply F; unfold winding in *; proj; rewrite HP; exact W.
  - destruct (hpx c) eqn:HP; try discriminate H. destruct (signalled c); [|discriminate H]. sinv H. constructor; proj; try assumption; try exact Logic.I.
    intros _. cbn [rule] in RU. apply negb_true_iff in RU. exact RU.
  - destruct (hpx c) as [|t dr| |] eqn:HP; try discriminate H. cbn [obeys] in OB. subst ok. destruct t as [m n|m]; [|discriminate D].
    cbn [run_task] in H. destruct (iffy (md c m)) eqn:IF; [rewrite A in IF; discriminate IF|].
    assert (W' : forall q d, winding (with_q (with_md c m d) q (if dr then HpDrain else HpWait)) = winding c).
    { intros q d. unfold winding. proj. rewrite HP. destruct dr; reflexivity. }
    assert (W2 : forall q, winding (with_q c q (if dr then HpDrain else HpWait)) = winding c).
    { intros q. unfold winding. proj. rewrite HP. destruct dr; reflexivity. }
    destruct (Nat.eqb n 0).
    + injection H as <-. constructor; try (rewrite W2; exact F); proj; try assumption.
      * rewrite app_nil_r. exact B.
      * destruct dr; exact Logic.I.
    + injection H as <-. constructor; try (rewrite W'; exact F); proj; try assumption.
      * intros k. unfold upd. destruct (Nat.eqb_spec k m) as [->|]; proj; apply A.
      * rewrite app_nil_r. exact B.
      * destruct dr; exact Logic.I.
      * assert (CE : forall k, cnt (upd (md c) m (flush (md c m) n) k) = cnt (md c k)).
        { intros k. unfold upd. destruct (Nat.eqb_spec k m) as [->|]; reflexivity. }
        destruct (lpx c) as [|rest [|]|? ? rest [|]| |]; try exact Logic.I; try contradiction; intros k KM; rewrite CE; auto.
  - destruct (que c) as [|t q] eqn:QE; [|discriminate H]. destruct (hpx c) eqn:HP; try discriminate H; sinv H. constructor; proj; try assumption; auto.
    intros W. apply F. unfold winding in *. proj. rewrite HP. exact W.
  - destruct (lpx c) eqn:LP; try discriminate H. sinv H. constructor; proj; try assumption; auto.
    intros W. apply F. unfold winding in *. proj. rewrite LP. exact W.
  - destruct (lpx c) eqn:LP; try discriminate H. destruct (signalled c); [|discriminate H]. sinv H. constructor; proj; try assumption.
    + intros _. cbn [rule] in RU. apply negb_true_iff in RU. exact RU.
    + intros m M. left. apply in_seq. lia.
  - destruct (lpx c) as [|[|m rest] fin| | |] eqn:LP; try discriminate H. sinv H. constructor; proj; try assumption.
    + intros k. unfold upd. destruct (Nat.eqb_spec k m) as [->|]; proj; apply A.
    + intros W. apply F. unfold winding in *. proj. rewrite LP. exact W.
    + destruct fin; [|exact Logic.I]. intros k KM. unfold upd. destruct (Nat.eqb_spec k m) as [->|]; proj; [now right|].
      destruct (G k KM) as [[I|I]|I]; auto. congruence.
  - destruct (lpx c) as [| |m n rest fin| |] eqn:LP; try discriminate H. cbn [obeys] in OB. subst ok. cbn [run_task] in H. destruct (iffy (md c m)) eqn:IF; [rewrite A in IF; discriminate IF|].
    assert (W' : forall d, winding (with_lp (with_md c m d) (LpScan rest fin)) = winding c).
    { intros d. unfold winding. proj. rewrite LP. reflexivity. }
    assert (W2 : winding (with_lp c (LpScan rest fin)) = winding c).
    { unfold winding. proj. rewrite LP. reflexivity. }
    destruct (Nat.eqb n 0).
    + injection H as <-. constructor; try (rewrite W2; exact F); proj; assumption.
    + injection H as <-. constructor; try (rewrite W'; exact F); proj; try assumption.
      * intros k. unfold upd. destruct (Nat.eqb_spec k m) as [->|]; proj; apply A.
      * destruct fin; [|exact Logic.I]. intros k KM. destruct (G k KM) as [I|I]; [now left|right].
        unfold upd. destruct (Nat.eqb_spec k m) as [->|]; proj; exact I.
  - destruct (lpx c) as [|[|m rest] fin| | |] eqn:LP; try discriminate H. sinv H. constructor; proj; try assumption.
    + intros W. apply F. unfold winding in *. proj. rewrite LP. destruct fin; exact W.
    + destruct fin; [|exact Logic.I]. intros k KM. destruct (G k KM) as [[]|I]; exact I.
Qed.
Lemma calm_init : forall k, calm (cfg0 k).
Proof. intros k. constructor; cbn; auto. Qed.
Lemma calm_run : forall ls c c', calm c -> ruled max nm c ls = true -> srun max nm c ls = Some c' -> calm c'.
Proof.
  induction ls as [|l ls IH]; intros c c' K R H; cbn [srun ruled] in *.
  - injection H as <-. exact K.
  - apply andb_true_iff in R. destruct R as [R1 R2]. apply andb_true_iff in R1. destruct R1 as [R1 R3].
    destruct (step c l) as [c1|] eqn:E; [|discriminate H]. eapply IH; [|exact R2|exact H]. eapply step_calm; eassumption.
Qed.

Lemma made_in : forall c m x, In (m, x) (done c) -> In x (made c m).
Proof.
  intros c m x I. unfold made. apply in_map_iff. exists (m, x). split; [reflexivity|]. apply filter_In. split; [exact I|]. apply Nat.eqb_refl.
Qed.
Lemma calm_closed : forall c m, sound c -> calm c -> mainx c = MClosed -> m < nm -> made c m = disk (md c m).
Proof.
  intros c m S0 K M L. destruct (closed_exact c m S0 M) as [O E]. rewrite (ca_lost _ K) in E.
  assert (Z : cnt (md c m) = 0).
  { destruct S0 as (_ & _ & SH & _). destruct (sh_closed _ SH M) as (_ & [LP|LP] & _); pose proof (ca_lp _ K) as G; rewrite LP in G; [exact (G m L)|contradiction]. }
  rewrite Z in E. destruct (pend (md c m)); [|discriminate E]. rewrite app_nil_r in O. exact O.
Qed.
Lemma calm_durable : forall c, sound c -> calm c -> mainx c = MClosed -> durable c.
Proof.
  intros c S0 K M x I. pose proof S0 as (_ & _ & _ & (_ & K2 & K3)). destruct (K2 _ I) as [m IM]. exists m. split; [exact IM|].
  rewrite <- (calm_closed c m S0 K M (K3 _ _ IM)). apply made_in. exact IM.
Qed.

(** ** A recovery that never succeeds *)
Lemma step_recovering : forall c l c', recovering c -> hpx c <> HpExit -> fails l = true -> step c l = Some c' -> recovering c' /\ hpx c' <> HpExit.
Proof.
  intros c l c' (m & R) NE FA H. destruct l; cbn [sstep] in H.
  - destruct (mainx c) eqn:M; try discriminate H. sinv H. split; [exists m; exact R|exact NE].
  - hcase H i. destruct (Nat.ltb m0 nm); [|discriminate H]. sinv H. split; [exists m; exact R|exact NE].
  - hcase H i. destruct (iffy (md c m0)); sinv H; (split; [exists m; exact R|exact NE]).
  - hcase H i. sinv H. split; [exists m; exact R|exact NE].
  - hcase H i. destruct (Nat.leb max hint); [destruct (hp_alive c)|]; sinv H; (split; [exists m; proj|exact NE]); try exact R.
    destruct R as [R|R]; [left; apply in_app_iff; now left|now right].
  - hcase H i. sinv H. split; [exists m; exact R|exact NE].
  - hcase H i. sinv H. split; [exists m; exact R|exact NE].
  - destruct (existsb (Nat.eqb i) (ddl c)); [|discriminate H]. sinv H. split; [exists m; exact R|exact NE].
  - destruct (existsb (Nat.eqb i) (ddl c)) eqn:X; [|discriminate H]. injection H as <-.
    destruct (nth_error (hs c) i) as [[]|]; (split; [exists m; exact R|exact NE]).
  - hcase H i; (destruct (signalled c); [|discriminate H]); sinv H; (split; [exists m; exact R|exact NE]).
  - hcase H i. sinv H. split; [exists m; exact R|exact NE].
  - destruct (mainx c) eqn:M; try discriminate H. sinv H. split; [exists m; exact R|exact NE].
  - destruct (mainx c) eqn:M; try discriminate H. destruct (senders c) as [|s] eqn:SS; [discriminate H|]. sinv H. split; [exists m; exact R|exact NE].
  - destruct (mainx c) eqn:M; try discriminate H. destruct (forallb over (hs c)); [|discriminate H]. sinv H. split; [exists m; exact R|exact NE].
  - destruct (hpx c) eqn:HP; try contradiction; destruct (mainx c) eqn:M, (lpx c) eqn:LP, (ddl c) eqn:DD; try discriminate H; congruence.
  - destruct (que c) as [|t q] eqn:QE; [discriminate H|].
    assert (R' : In (TRecover m) (t :: q)).
    { destruct R as [R|[b R]]; [exact R|]. rewrite R in H. discriminate H. }
    destruct (hpx c) eqn:HP; try discriminate H; sinv H; (split; [|intros X; discriminate X]); exists m; proj;
      (destruct R' as [<-|R']; [right; eexists; reflexivity|left; exact R']).
  - destruct (hpx c) eqn:HP; try discriminate H. destruct (signalled c); [|discriminate H]. sinv H. split; [|intros X; discriminate X].
    exists m. proj. destruct R as [R|[b R]]; [now left|discriminate R].
  - destruct (hpx c) as [|t dr| |] eqn:HP; try discriminate H. cbn [fails] in FA. apply negb_true_iff in FA. subst ok.
    destruct (run_task c t false) as [c1 back] eqn:RT. sinv H. split; [|destruct dr; intros X; discriminate X].
    exists m. proj. left. apply in_app_iff. destruct R as [R|[b R]]; [now left|]. injection R as -> <-.
    cbn [run_task] in RT. injection RT as _ <-. right. now left.
  - destruct (que c) as [|t q] eqn:QE; [|discriminate H]. destruct (hpx c) eqn:HP; try discriminate H.
    destruct R as [[]|[b R]]. discriminate R.
  - destruct (lpx c) eqn:LP; try discriminate H. sinv H. split; [exists m; exact R|exact NE].
  - destruct (lpx c) eqn:LP; try discriminate H. destruct (signalled c); [|discriminate H]. sinv H. split; [exists m; exact R|exact NE].
  - destruct (lpx c) as [|[|m0 rest] fin| | |] eqn:LP; try discriminate H. sinv H. split; [exists m; exact R|exact NE].
  - destruct (lpx c) as [| |m0 n rest fin| |] eqn:LP; try discriminate H. destruct (run_task c (TWrite m0 n) ok) as [c1 back] eqn:RT.
    pose proof (run_task_fields _ _ _ _ _ RT) as (F1 & F2 & F3 & _).
    destruct back as [|b bs]; [|destruct (hp_alive c)]; sinv H; (split; [exists m; proj|proj; rewrite ?F3; exact NE]); rewrite ?F2, ?F3; try exact R.
    destruct R as [R|R]; [left; apply in_app_iff; now left|now right].
  - destruct (lpx c) as [|[|m0 rest] fin| | |] eqn:LP; try discriminate H. sinv H. split; [exists m; exact R|exact NE].
Qed.
Lemma run_recovering : forall ls c c', recovering c -> hpx c <> HpExit -> forallb fails ls = true -> srun max nm c ls = Some c' -> recovering c' /\ hpx c' <> HpExit.
Proof.
  induction ls as [|l ls IH]; intros c c' R NE F H; cbn [srun forallb] in *.
  - injection H as <-. auto.
  - apply andb_true_iff in F. destruct F as [F1 F2]. destruct (step c l) as [c1|] eqn:E; [|discriminate H].
    destruct (step_recovering _ _ _ R NE F1 E) as [R1 N1]. eapply IH; eassumption.
Qed.

(** ** Threads of administrative statements *)
Definition lent (c : cfg) : Prop := senders c <> 0 -> uaf c = false /\ forall i, In i (ddl c) -> nth_error (hs c) i = Some HDdl.
Lemma lent_same : forall c c', lent c -> senders c' = senders c -> uaf c' = uaf c -> ddl c' = ddl c -> hs c' = hs c -> lent c'.
Proof. intros c c' L S0 U D HS SN. rewrite S0 in SN. destruct (L SN) as [A B]. rewrite U, D, HS. auto. Qed.
Lemma lent_set : forall c c' i h h', lent c -> nth_error (hs c) i = Some h -> h <> HDdl -> senders c' = senders c -> uaf c' = uaf c -> ddl c' = ddl c ->
  hs c' = set_h (hs c) i h' -> lent c'.
Proof.
  intros c c' i h h' L N NE S0 U D HS SN. rewrite S0 in SN. destruct (L SN) as [A B]. rewrite U, D, HS. split; [exact A|].
  intros j J. pose proof (B j J) as X. destruct (Nat.eq_dec j i) as [->|NJ]; [congruence|]. rewrite (nth_set_other _ _ _ _ _ N NJ). exact X.
Qed.
Lemma step_lent : forall c l c', lent c -> step c l = Some c' -> lent c'.
Proof.
  intros c l c' L H. destruct l; cbn [sstep] in H.
  - destruct (mainx c) eqn:M; try discriminate H. sinv H. intros SN. proj. destruct (L SN) as [A B]. split; [exact A|].
    intros i I. apply B in I. rewrite nth_error_app1; [exact I|]. apply nth_error_Some. congruence.
  - hcase H i. destruct (Nat.ltb m nm); [|discriminate H]. sinv H. eapply (lent_set c); try reflexivity; try eassumption. discriminate.
  - hcase H i. destruct (iffy (md c m)); sinv H; (eapply (lent_set c); try reflexivity; try eassumption); discriminate.
  - hcase H i. sinv H. eapply (lent_set c); try reflexivity; try eassumption. discriminate.
  - hcase H i. destruct (Nat.leb max hint); [destruct (hp_alive c)|]; sinv H; (eapply (lent_set c); try reflexivity; try eassumption); discriminate.
  - hcase H i. sinv H. eapply (lent_set c); try reflexivity; try eassumption. discriminate.
  - hcase H i. sinv H. intros SN. proj. destruct (L SN) as [A B]. split; [exact A|]. intros j J.
    destruct (Nat.eq_dec j i) as [->|NJ]; [apply (nth_set_same _ _ _ _ N)|]. rewrite (nth_set_other _ _ _ _ _ N NJ).
    destruct J as [J|J]; [congruence|exact (B j J)].
  - destruct (existsb (Nat.eqb i) (ddl c)) eqn:X; [|discriminate H]. sinv H. intros SN. proj. destruct (L SN) as [A B]. split; [|exact B].
    apply existsb_exists in X. destruct X as (j & J & E). apply Nat.eqb_eq in E. subst j. rewrite (B i J), A. reflexivity.
  - destruct (existsb (Nat.eqb i) (ddl c)) eqn:X; [|discriminate H]. injection H as <-. intros SN.
    apply existsb_exists in X. destruct X as (j & J & E). apply Nat.eqb_eq in E. subst j.
    destruct (nth_error (hs c) i) as [h|] eqn:N.
    + assert (SN' : senders c <> 0) by (destruct h; exact SN). destruct (L SN') as [A B]. pose proof (B i J) as X. rewrite N in X. injection X as ->.
      proj. split; [exact A|]. intros j K. apply filter_In in K. destruct K as [K1 K2]. apply negb_true_iff, Nat.eqb_neq in K2.
      rewrite (nth_set_other _ _ _ _ _ N); [|congruence]. exact (B j K1).
    + destruct (L SN) as [A B]. rewrite (B i J) in N. discriminate N.
  - hcase H i; (destruct (signalled c) eqn:SG; [|discriminate H]); sinv H; intros SN; proj; unfold signalled in SG; apply Nat.eqb_eq in SG; contradiction.
  - hcase H i. sinv H. eapply (lent_set c); try reflexivity; try eassumption. discriminate.
  - destruct (mainx c) eqn:M; try discriminate H. sinv H. eapply (lent_same c); try reflexivity; assumption.
  - destruct (mainx c) eqn:M; try discriminate H. destruct (senders c) as [|s] eqn:SS; [discriminate H|]. sinv H. intros SN. proj.
    apply L. rewrite SS. discriminate.
  - destruct (mainx c) eqn:M; try discriminate H. destruct (forallb over (hs c)); [|discriminate H]. sinv H. eapply (lent_same c); try reflexivity; assumption.
  - destruct (mainx c) eqn:M, (hpx c) eqn:HP, (lpx c) eqn:LP, (ddl c) eqn:DD; try discriminate H; sinv H; eapply (lent_same c); try reflexivity; assumption.
  - destruct (que c) as [|t q] eqn:QE; [discriminate H|]. destruct (hpx c) eqn:HP; try discriminate H; sinv H; eapply (lent_same c); try reflexivity; assumption.
  - destruct (hpx c) eqn:HP; try discriminate H. destruct (signalled c); [|discriminate H]. sinv H. eapply (lent_same c); try reflexivity; assumption.
  - destruct (hpx c) as [|t dr| |] eqn:HP; try discriminate H. destruct (run_task c t ok) as [c1 back] eqn:R.
    pose proof (run_task_fields _ _ _ _ _ R) as (F1 & F2 & F3 & F4 & F5 & F6 & F7 & F8 & F9 & F10 & F11 & F12 & F13).
    sinv H. eapply (lent_same c); proj; assumption.
  - destruct (que c) as [|t q] eqn:QE; [|discriminate H]. destruct (hpx c) eqn:HP; try discriminate H; sinv H; eapply (lent_same c); try reflexivity; assumption.
  - destruct (lpx c) eqn:LP; try discriminate H. sinv H. eapply (lent_same c); try reflexivity; assumption.
  - destruct (lpx c) eqn:LP; try discriminate H. destruct (signalled c); [|discriminate H]. sinv H. eapply (lent_same c); try reflexivity; assumption.
  - destruct (lpx c) as [|[|m rest] fin| | |] eqn:LP; try discriminate H. sinv H. eapply (lent_same c); try reflexivity; assumption.
  - destruct (lpx c) as [| |m n rest fin| |] eqn:LP; try discriminate H. destruct (run_task c (TWrite m n) ok) as [c1 back] eqn:R.
    pose proof (run_task_fields _ _ _ _ _ R) as (F1 & F2 & F3 & F4 & F5 & F6 & F7 & F8 & F9 & F10 & F11 & F12 & F13).
    destruct back as [|b bs]; [|destruct (hp_alive c)]; sinv H; eapply (lent_same c); proj; assumption.
  - destruct (lpx c) as [|[|m rest] fin| | |] eqn:LP; try discriminate H. sinv H. eapply (lent_same c); try reflexivity; assumption.
Qed.
Lemma lent_run : forall ls c c', lent c -> srun max nm c ls = Some c' -> lent c'.
Proof.
  induction ls as [|l ls IH]; intros c c' K H; cbn [srun] in *.
  - injection H as <-. exact K.
  - destruct (step c l) as [c1|] eqn:E; [|discriminate H]. eapply IH; [|exact H]. eapply step_lent; eassumption.
Qed.

(** ** A schedule that ends *)
Definition can (c c' : cfg) : Prop := exists ls, forallb obeys ls = true /\ srun max nm c ls = Some c'.
Lemma can_refl : forall c, can c c.
Proof. intros c. exists []. split; reflexivity. Qed.
Lemma srun_app : forall a b c, srun max nm c (a ++ b) = match srun max nm c a with Some c' => srun max nm c' b | None => None end.
Proof. induction a as [|l a IH]; intros b c; [reflexivity|]. cbn [app srun]. destruct (step c l); [apply IH|reflexivity]. Qed.
Lemma can_trans : forall a b c, can a b -> can b c -> can a c.
Proof.
  intros a b c (l1 & O1 & R1) (l2 & O2 & R2). exists (l1 ++ l2). split; [rewrite forallb_app, O1, O2; reflexivity|]. rewrite srun_app, R1. exact R2.
Qed.
Lemma can_step : forall c l c' d, obeys l = true -> step c l = Some c' -> can c' d -> can c d.
Proof.
  intros c l c' d O H C. apply (can_trans c c' d); [|exact C]. exists [l]. split; [cbn [forallb]; rewrite O; reflexivity|]. cbn [srun]. rewrite H. reflexivity.
Qed.

(** a failed driver has a recovery waiting, unless its executor is gone; a handler that waits for a thread has one *)
Record live (c : cfg) : Prop := mk_live {
  lv_cure : forall m, iffy (md c m) = true -> hpx c = HpExit \/ In (TRecover m) (que c) \/ exists b, hpx c = HpRun (TRecover m) b;
  lv_ddl : forall i, nth_error (hs c) i = Some HDdl -> In i (ddl c)
}.
Lemma live_handler : forall c c' i h h', live c -> nth_error (hs c) i = Some h -> h' <> HDdl -> hs c' = set_h (hs c) i h' -> ddl c' = ddl c ->
  (forall m, iffy (md c' m) = iffy (md c m)) -> hpx c' = hpx c -> (forall t, In t (que c) -> In t (que c')) -> live c'.
Proof.
  intros c c' i h h' [A B] N NE HS D I HP Q. constructor.
  - intros m X. rewrite I in X. rewrite HP. destruct (A m X) as [Y|[Y|Y]]; auto.
  - intros j J. rewrite D. rewrite HS in J. destruct (Nat.eq_dec j i) as [->|NJ].
    + rewrite (nth_set_same _ _ _ _ N) in J. congruence.
    + rewrite (nth_set_other _ _ _ _ _ N NJ) in J. exact (B j J).
Qed.
Lemma live_frame : forall c c', live c -> hs c' = hs c -> ddl c' = ddl c -> (forall m, iffy (md c' m) = iffy (md c m)) -> hpx c' = hpx c ->
  (forall t, In t (que c) -> In t (que c')) -> live c'.
Proof.
  intros c c' [A B] HS D I HP Q. constructor.
  - intros m X. rewrite I in X. rewrite HP. destruct (A m X) as [Y|[Y|Y]]; auto.
  - intros j J. rewrite D. rewrite HS in J. exact (B j J).
Qed.

Lemma step_live : forall c l c', live c -> step c l = Some c' -> live c'.
Proof.
  intros c l c' L H. pose proof L as [A B]. destruct l; cbn [sstep] in H.
  - destruct (mainx c) eqn:M; try discriminate H. sinv H. constructor; proj; [exact A|]. intros i I.
    destruct (Nat.lt_ge_cases i (length (hs c))) as [Lt|Ge].
    + rewrite nth_error_app1 in I by exact Lt. exact (B i I).
    + rewrite nth_error_app2 in I by exact Ge. destruct (i - length (hs c)) as [|[|k]]; discriminate I.
  - hcase H i. destruct (Nat.ltb m nm); [|discriminate H]. sinv H. eapply (live_handler c); try reflexivity; try eassumption; auto. discriminate.
  - hcase H i. destruct (iffy (md c m)) eqn:IF; sinv H; (eapply (live_handler c); try reflexivity; try eassumption; auto); try discriminate.
    intros k. proj. unfold upd. destruct (Nat.eqb_spec k m) as [->|]; proj; rewrite ?IF; reflexivity.
  - hcase H i. sinv H. eapply (live_handler c); try reflexivity; try eassumption; auto; try discriminate.
    intros k. proj. unfold upd. destruct (Nat.eqb_spec k m) as [->|]; proj; reflexivity.
  - hcase H i. destruct (Nat.leb max hint); [destruct (hp_alive c)|]; sinv H; (eapply (live_handler c); try reflexivity; try eassumption; auto); try discriminate.
    + intros k. proj. unfold upd. destruct (Nat.eqb_spec k m) as [->|]; proj; reflexivity.
    + proj. intros t T. apply in_app_iff. now left.
    + intros k. proj. unfold upd. destruct (Nat.eqb_spec k m) as [->|]; proj; reflexivity.
  - hcase H i. sinv H. eapply (live_handler c); try reflexivity; try eassumption; auto; discriminate.
  - hcase H i. sinv H. constructor; proj; [exact A|]. intros j J. destruct (Nat.eq_dec j i) as [->|NJ]; [now left|right].
    rewrite (nth_set_other _ _ _ _ _ N NJ) in J. exact (B j J).
  - destruct (existsb (Nat.eqb i) (ddl c)); [|discriminate H]. sinv H. eapply (live_frame c); try reflexivity; auto.
  - destruct (existsb (Nat.eqb i) (ddl c)) eqn:X; [|discriminate H]. injection H as <-.
    assert (FI : forall j, j <> i -> In j (ddl c) -> In j (filter (fun k => negb (Nat.eqb i k)) (ddl c))).
    { intros j NJ J. apply filter_In. split; [exact J|]. apply negb_true_iff, Nat.eqb_neq. congruence. }
    assert (DI : forall j, nth_error (hs c) j = Some HDdl -> j <> i -> In j (filter (fun k => negb (Nat.eqb i k)) (ddl c))) by (intros j J NJ; apply FI; [exact NJ|exact (B j J)]).
    destruct (nth_error (hs c) i) as [h|] eqn:N.
    + destruct h; (constructor; proj; [exact A|]); intros j J; (destruct (Nat.eq_dec j i) as [->|NJ]); try congruence; try (apply DI; assumption).
      * rewrite (nth_set_same _ _ _ _ N) in J. discriminate J.
      * rewrite (nth_set_other _ _ _ _ _ N NJ) in J. apply DI; assumption.
    + constructor; proj; [exact A|]. intros j J. destruct (Nat.eq_dec j i) as [->|NJ]; [congruence|apply DI; assumption].
  - hcase H i; (destruct (signalled c) eqn:SG; [|discriminate H]); sinv H; eapply (live_handler c); try reflexivity; try eassumption; auto; discriminate.
  - hcase H i. sinv H. eapply (live_handler c); try reflexivity; try eassumption; auto; discriminate.
  - destruct (mainx c) eqn:M; try discriminate H. sinv H. eapply (live_frame c); try reflexivity; auto.
  - destruct (mainx c) eqn:M; try discriminate H. destruct (senders c) as [|s] eqn:SS; [discriminate H|]. sinv H. eapply (live_frame c); try reflexivity; auto.
  - destruct (mainx c) eqn:M; try discriminate H. destruct (forallb over (hs c)); [|discriminate H]. sinv H. eapply (live_frame c); try reflexivity; auto.
  - destruct (mainx c) eqn:M, (hpx c) eqn:HP, (lpx c) eqn:LP, (ddl c) eqn:DD; try discriminate H; sinv H; (eapply (live_frame c); try reflexivity; auto).
  - destruct (que c) as [|t q] eqn:QE; [discriminate H|]. destruct (hpx c) eqn:HP; try discriminate H; sinv H; (constructor; proj; [|exact B]);
      intros m X; destruct (A m X) as [Y|[[Y|Y]|[b Y]]]; try discriminate Y; auto; right; right; subst t; eexists; reflexivity.
  - destruct (hpx c) eqn:HP; try discriminate H. destruct (signalled c); [|discriminate H]. sinv H. constructor; proj; [|exact B].
    intros m X; destruct (A m X) as [Y|[Y|[b Y]]]; try discriminate Y; auto.
  - destruct (hpx c) as [|t dr| |] eqn:HP; try discriminate H. destruct (run_task c t ok) as [c1 back] eqn:R.
    pose proof (run_task_fields _ _ _ _ _ R) as (F1 & F2 & F3 & F4 & F5 & F6 & F7 & F8 & F9 & F10 & F11 & F12 & F13).
    sinv H. constructor; proj; [|rewrite F1, F7; exact B]. intros m X. right. left. apply in_app_iff. destruct t as [k n|k]; cbn [run_task] in R.
    + destruct (iffy (md c k)) eqn:IF.
      * injection R as <- <-. destruct (A m X) as [Y|[Y|[b Y]]]; try discriminate Y. now left.
      * destruct (Nat.eqb n 0).
        { injection R as <- <-. destruct (A m X) as [Y|[Y|[b Y]]]; try discriminate Y. now left. }
        destruct ok; injection R as <- <-; proj; unfold upd in X; destruct (Nat.eqb_spec m k) as [E|]; proj.
        -- congruence.
        -- destruct (A m X) as [Y|[Y|[b Y]]]; try discriminate Y; now left.
        -- subst k. right; now left.
        -- destruct (A m X) as [Y|[Y|[b Y]]]; try discriminate Y; now left.
    + destruct ok; injection R as <- <-; proj.
      * unfold upd in X. destruct (Nat.eqb_spec m k) as [E|NK]; proj; [discriminate X|]. destruct (A m X) as [Y|[Y|[b Y]]]; try discriminate Y; [now left|]. injection Y as -> _. congruence.
      * destruct (A m X) as [Y|[Y|[b Y]]]; try discriminate Y; [now left|]. injection Y as -> _. right. now left.
  - destruct (que c) as [|t q] eqn:QE; [|discriminate H]. destruct (hpx c) eqn:HP; try discriminate H; sinv H. constructor; proj; [|exact B]. intros m X. now left.
  - destruct (lpx c) eqn:LP; try discriminate H. sinv H. eapply (live_frame c); try reflexivity; auto.
  - destruct (lpx c) eqn:LP; try discriminate H. destruct (signalled c); [|discriminate H]. sinv H. eapply (live_frame c); try reflexivity; auto.
  - destruct (lpx c) as [|[|m rest] fin| | |] eqn:LP; try discriminate H. sinv H. eapply (live_frame c); try reflexivity; auto.
    intros k. proj. unfold upd. destruct (Nat.eqb_spec k m) as [->|]; proj; reflexivity.
  - destruct (lpx c) as [| |m n rest fin| |] eqn:LP; try discriminate H. destruct (run_task c (TWrite m n) ok) as [c1 back] eqn:R.
    pose proof (run_task_fields _ _ _ _ _ R) as (F1 & F2 & F3 & F4 & F5 & F6 & F7 & F8 & F9 & F10 & F11 & F12 & F13).
    assert (CU : forall k, iffy (md c1 k) = true -> iffy (md c k) = true \/ In (TRecover k) back).
    { intros k X. cbn [run_task] in R. destruct (iffy (md c m)) eqn:IF; [injection R as <- <-; now left|]. destruct (Nat.eqb n 0); [injection R as <- <-; now left|].
      destruct ok; injection R as <- <-; proj; unfold upd in X; destruct (Nat.eqb_spec k m) as [E|]; proj; try congruence; try (now left). subst k. right; now left. }
    destruct back as [|b bs].
    + sinv H. constructor; proj; [|rewrite F1, F7; exact B]. intros k X. rewrite F2, F3. destruct (CU k X) as [Y|[]]. exact (A k Y).
    + destruct (hp_alive c) eqn:HA; sinv H; (constructor; proj; [|rewrite F1, F7; exact B]); intros k X.
      * destruct (CU k X) as [Y|Y].
        -- destruct (A k Y) as [Z|[Z|Z]]; [now left|right; left; apply in_app_iff; now left|now (right; right)].
        -- right. left. apply in_app_iff. now right.
      * left. rewrite F3. unfold hp_alive in HA. destruct (hpx c); try discriminate HA. reflexivity.
  - destruct (lpx c) as [|[|m rest] fin| | |] eqn:LP; try discriminate H. sinv H. eapply (live_frame c); try reflexivity; auto.
Qed.
Lemma live_run : forall ls c c', live c -> srun max nm c ls = Some c' -> live c'.
Proof.
  induction ls as [|l ls IH]; intros c c' K H; cbn [srun] in *.
  - injection H as <-. exact K.
  - destruct (step c l) as [c1|] eqn:E; [|discriminate H]. eapply IH; [|exact H]. eapply step_live; eassumption.
Qed.
Lemma live_init : forall k, live (cfg0 k).
Proof. intros k. constructor; cbn; intros m E; [discriminate E|]. destruct m; discriminate E. Qed.
Lemma live_can : forall c c', live c -> can c c' -> live c'.
Proof. intros c c' L (ls & _ & R). exact (live_run _ _ _ L R). Qed.
Lemma sound_can : forall c c', sound c -> can c c' -> sound c'.
Proof. intros c c' L (ls & _ & R). exact (sound_run _ _ _ L R). Qed.

(** the threads end *)
Lemma end_ddl : forall n c, length (ddl c) <= n -> exists c', can c c' /\ ddl c' = [] /\ mainx c' = mainx c /\ senders c' = senders c.
Proof.
  induction n as [|n IH]; intros c L.
  - exists c. split; [apply can_refl|]. split; [destruct (ddl c); [reflexivity|cbn in L; lia]|]. split; reflexivity.
  - destruct (ddl c) as [|i r] eqn:D; [exists c; split; [apply can_refl|]; split; [exact D|]; split; reflexivity|].
    assert (X : exists c1, step c (LDdlEnd i) = Some c1 /\ length (ddl c1) <= n /\ mainx c1 = mainx c /\ senders c1 = senders c).
    { cbn [sstep]. rewrite D. cbn [existsb]. rewrite Nat.eqb_refl. cbn [orb]. eexists. split; [reflexivity|].
      assert (FL : length (filter (fun k => negb (Nat.eqb i k)) (i :: r)) <= n).
      { cbn [filter]. rewrite Nat.eqb_refl. cbn [negb]. cbn [length] in L. clear - L. assert (length (filter (fun k => negb (Nat.eqb i k)) r) <= length r); [|lia].
        clear L. induction r as [|x r IH]; [cbn; lia|]. cbn [filter]. destruct (negb (Nat.eqb i x)); cbn [length]; lia. }
      destruct (nth_error (hs c) i) as [[]|]; proj; (split; [exact FL|split; reflexivity]). }
    destruct X as (c1 & S1 & L1 & M1 & N1). destruct (IH c1 L1) as (c2 & C2 & D2 & M2 & N2). exists c2.
    split; [eapply can_step; [|exact S1|exact C2]; reflexivity|]. split; [exact D2|]. split; congruence.
Qed.

(** the statements end *)
Definition weight (h : hst) : nat := match h with HRun _ _ => 5 | HPush _ _ => 4 | HFull _ _ _ => 3 | HAnswer _ => 2 | HDdl => 1 | HIdle => 1 | _ => 0 end.
Definition rest (h : hst) : bool := match h with HIdle | HGone | HPanic | HDdl => true | _ => false end.
Lemma end_stmts : forall n c, sumf weight (hs c) <= n -> ddl c = [] ->
  exists c', can c c' /\ forallb rest (hs c') = true /\ ddl c' = [] /\ mainx c' = mainx c /\ senders c' = senders c.
Proof.
  induction n as [n IH] using lt_wf_ind. intros c L D.
  destruct (forallb rest (hs c)) eqn:F; [exists c; split; [apply can_refl|]; split; [exact F|]; split; [exact D|]; split; reflexivity|].
  assert (X : exists i h, nth_error (hs c) i = Some h /\ rest h = false).
  { clear - F. generalize dependent (hs c). induction l as [|x l IH]; intros F; [discriminate F|]. cbn [forallb] in F. destruct (rest x) eqn:RX.
    - destruct (IH F) as (i & h & A & B). exists (S i), h. auto.
    - exists 0, x. auto. }
  destruct X as (i & h & N & RH).
  assert (X : exists l c1, obeys l = true /\ step c l = Some c1 /\ sumf weight (hs c1) < sumf weight (hs c) /\ ddl c1 = [] /\ mainx c1 = mainx c /\ senders c1 = senders c).
  { destruct h; try discriminate RH.
    - destruct (iffy (md c m)) eqn:IF; exists (LExec i); (eexists; split; [reflexivity|]; split; [cbn [sstep]; rewrite N, IF; reflexivity|]); proj.
      + pose proof (sumf_set weight _ _ _ HIdle N) as P. cbn [weight] in P. split; [lia|]. repeat (split; [first [reflexivity|exact D]|]). reflexivity.
      + pose proof (sumf_set weight _ _ _ (HPush m c0) N) as P. cbn [weight] in P. split; [lia|]. repeat (split; [first [reflexivity|exact D]|]). reflexivity.
    - exists (LCount i). eexists. split; [reflexivity|]. split; [cbn [sstep]; rewrite N; reflexivity|]. proj.
      pose proof (sumf_set weight _ _ _ (HFull m c0 (S (cnt (md c m)))) N) as P. cbn [weight] in P. split; [lia|]. repeat (split; [first [reflexivity|exact D]|]). reflexivity.
    - exists (LCheck i). cbn [sstep]. rewrite N. destruct (Nat.leb max hint); [destruct (hp_alive c)|]; (eexists; split; [reflexivity|]; split; [reflexivity|]); proj.
      + pose proof (sumf_set weight _ _ _ (HAnswer c0) N) as P. cbn [weight] in P. split; [lia|]. repeat (split; [first [reflexivity|exact D]|]). reflexivity.
      + pose proof (sumf_set weight _ _ _ HPanic N) as P. cbn [weight] in P. split; [lia|]. repeat (split; [first [reflexivity|exact D]|]). reflexivity.
      + pose proof (sumf_set weight _ _ _ (HAnswer c0) N) as P. cbn [weight] in P. split; [lia|]. repeat (split; [first [reflexivity|exact D]|]). reflexivity.
    - exists (LAnswer i). eexists. split; [reflexivity|]. split; [cbn [sstep]; rewrite N; reflexivity|]. proj.
      pose proof (sumf_set weight _ _ _ HIdle N) as P. cbn [weight] in P. split; [lia|]. repeat (split; [first [reflexivity|exact D]|]). reflexivity. }
  destruct X as (l & c1 & OB & S1 & L1 & D1 & M1 & N1).
  destruct (IH (sumf weight (hs c1)) ltac:(lia) c1 (le_n _) D1) as (c2 & C2 & R2 & D2 & M2 & N2). exists c2.
  split; [eapply can_step; [exact OB|exact S1|exact C2]|]. split; [exact R2|]. split; [exact D2|]. split; congruence.
Qed.

(** the senders go *)
Lemma end_senders : forall n c, senders c = n -> mainx c = MDrop -> n <> 0 ->
  exists c', can c c' /\ hs c' = hs c /\ ddl c' = ddl c /\ mainx c' = MWait /\ senders c' = 0.
Proof.
  induction n as [|n IH]; intros c S0 M NZ; [contradiction|].
  assert (X : step c LDrop = Some (with_main c (if Nat.eqb n 0 then MWait else MDrop) n)) by (cbn [sstep]; rewrite M, S0; reflexivity).
  destruct (Nat.eqb_spec n 0) as [->|Z].
  - eexists. split; [eapply can_step; [|exact X|apply can_refl]; reflexivity|]. proj. repeat (split; [reflexivity|]). reflexivity.
  - destruct (IH (with_main c MDrop n) eq_refl eq_refl Z) as (c2 & C2 & A2 & B2 & D2 & E2). exists c2.
    split; [eapply can_step; [|exact X|exact C2]; reflexivity|]. auto.
Qed.

(** the handlers leave *)
Lemma end_handlers : forall n c, sumf weight (hs c) <= n -> forallb rest (hs c) = true -> ddl c = [] -> (forall i, nth_error (hs c) i = Some HDdl -> In i (ddl c)) ->
  senders c = 0 -> exists c', can c c' /\ forallb over (hs c') = true /\ ddl c' = [] /\ mainx c' = mainx c /\ senders c' = 0.
Proof.
  induction n as [n IH] using lt_wf_ind. intros c L R D DD S0.
  destruct (forallb over (hs c)) eqn:F; [exists c; split; [apply can_refl|]; split; [exact F|]; split; [exact D|]; split; [reflexivity|exact S0]|].
  assert (X : exists i h, nth_error (hs c) i = Some h /\ over h = false).
  { clear - F. generalize dependent (hs c). induction l as [|x l IH]; intros F; [discriminate F|]. cbn [forallb] in F. destruct (over x) eqn:RX.
    - destruct (IH F) as (i & h & A & B). exists (S i), h. auto.
    - exists 0, x. auto. }
  destruct X as (i & h & N & OH). pose proof R as R0. rewrite forallb_forall in R0. pose proof (R0 _ (nth_error_In _ _ N)) as RH.
  assert (h = HIdle).
  { destruct h; cbn in OH, RH; try reflexivity; try discriminate RH; try discriminate OH. apply DD in N. rewrite D in N. destruct N. }
  subst h. assert (X : step c (LQuit i) = Some (with_h c i HGone)) by (cbn [sstep]; rewrite N; unfold signalled; rewrite S0; reflexivity).
  pose proof (sumf_set weight _ _ _ HGone N) as P. cbn [weight] in P.
  destruct (IH (sumf weight (hs (with_h c i HGone))) ltac:(proj; lia) (with_h c i HGone) (le_n _)) as (c2 & C2 & A2 & B2 & M2 & E2); proj; try assumption.
  - apply (forallb_set rest _ _ _ _ N). split; [reflexivity|]. intros j x _ J. apply R0. eapply nth_error_In; exact J.
  - intros j J. destruct (Nat.eq_dec j i) as [->|NJ]; [rewrite (nth_set_same _ _ _ _ N) in J; discriminate J|]. rewrite (nth_set_other _ _ _ _ _ N NJ) in J. exact (DD j J).
  - exists c2. split; [eapply can_step; [|exact X|exact C2]; reflexivity|]. auto.
Qed.

Definition same_rest (c c' : cfg) : Prop := hs c' = hs c /\ ddl c' = ddl c /\ mainx c' = mainx c /\ senders c' = senders c.
Lemma same_trans : forall a b c, same_rest a b -> same_rest b c -> same_rest a c.
Proof. intros a b c (A & B & C & D) (A' & B' & C' & D'). repeat split; congruence. Qed.

(** the scan of the models ends *)
Lemma scan_ends : forall l c fin, lpx c = LpScan l fin -> exists c', can c c' /\ same_rest c c' /\ (lpx c' = (if fin then LpExit else LpWait) \/ lpx c' = LpDead).
Proof.
  induction l as [|m l IH]; intros c fin LP.
  - eexists. split; [eapply (can_step c LScanEnd); [reflexivity|cbn [sstep]; rewrite LP; reflexivity|apply can_refl]|]. proj.
    split; [repeat split|]. now left.
  - set (c1 := with_lp (with_md c m (setcnt (md c m) 0)) (LpWrite m (cnt (md c m)) l fin)).
    assert (S1 : step c LTake = Some c1) by (cbn [sstep]; rewrite LP; reflexivity).
    assert (X : exists c2, step c1 (LLpWrite true) = Some c2 /\ same_rest c1 c2 /\ (lpx c2 = LpScan l fin \/ lpx c2 = LpDead)).
    { cbn [sstep]. change (lpx c1) with (LpWrite m (cnt (md c m)) l fin). cbv iota.
      destruct (run_task c1 (TWrite m (cnt (md c m))) true) as [c2 back] eqn:RT.
      pose proof (run_task_fields _ _ _ _ _ RT) as (F1 & F2 & F3 & F4 & F5 & F6 & F7 & _).
      destruct back as [|b bs]; [|destruct (hp_alive c1)]; (eexists; split; [reflexivity|]); (split; [split; [|split; [|split]]; proj; assumption|]); proj; auto. }
    destruct X as (c2 & S2 & R2 & [L2|L2]).
    + destruct (IH c2 fin L2) as (c3 & C3 & R3 & L3). exists c3. split; [eapply can_step; [|exact S1|eapply can_step; [|exact S2|exact C3]]; reflexivity|].
      split; [|exact L3]. apply (same_trans c c2 c3); [|exact R3]. apply (same_trans c c1 c2); [repeat split|exact R2].
    + exists c2. split; [eapply can_step; [|exact S1|eapply can_step; [|exact S2|apply can_refl]]; reflexivity|].
      split; [|now right]. apply (same_trans c c1 c2); [repeat split|exact R2].
Qed.
Definition lp_over (l : lpst) : bool := match l with LpExit | LpDead => true | _ => false end.
Lemma end_wait : forall c, senders c = 0 -> lpx c = LpWait -> exists c', can c c' /\ same_rest c c' /\ lp_over (lpx c') = true.
Proof.
  intros c S0 LP. set (c1 := with_lp c (LpScan (seq 0 nm) true)).
  assert (S1 : step c LLpSig = Some c1) by (cbn [sstep]; rewrite LP; unfold signalled; rewrite S0; reflexivity).
  destruct (scan_ends (seq 0 nm) c1 true eq_refl) as (c2 & C2 & R2 & L2). exists c2.
  split; [eapply can_step; [|exact S1|exact C2]; reflexivity|]. split; [apply (same_trans c c1 c2); [repeat split|exact R2]|].
  destruct L2 as [->| ->]; reflexivity.
Qed.
Lemma end_scan : forall c l fin, senders c = 0 -> lpx c = LpScan l fin -> exists c', can c c' /\ same_rest c c' /\ lp_over (lpx c') = true.
Proof.
  intros c l fin S0 LP. destruct (scan_ends l c fin LP) as (c2 & C2 & R2 & [L2|L2]); [destruct fin|].
  - exists c2. split; [exact C2|]. split; [exact R2|]. rewrite L2. reflexivity.
  - destruct (end_wait c2) as (c3 & C3 & R3 & L3); [destruct R2 as (_ & _ & _ & E); congruence|exact L2|].
    exists c3. split; [exact (can_trans _ _ _ C2 C3)|]. split; [exact (same_trans _ _ _ R2 R3)|exact L3].
  - exists c2. split; [exact C2|]. split; [exact R2|]. rewrite L2. reflexivity.
Qed.
Lemma end_lp : forall c, senders c = 0 -> exists c', can c c' /\ same_rest c c' /\ lp_over (lpx c') = true.
Proof.
  intros c S0. destruct (lpx c) as [|l fin|m n l fin| |] eqn:LP.
  - exact (end_wait c S0 LP).
  - exact (end_scan c l fin S0 LP).
  - assert (X : exists c2, step c (LLpWrite true) = Some c2 /\ same_rest c c2 /\ (lpx c2 = LpScan l fin \/ lpx c2 = LpDead)).
    { cbn [sstep]. rewrite LP. destruct (run_task c (TWrite m n) true) as [c2 back] eqn:RT.
      pose proof (run_task_fields _ _ _ _ _ RT) as (F1 & F2 & F3 & F4 & F5 & F6 & F7 & _).
      destruct back as [|b bs]; [|destruct (hp_alive c)]; (eexists; split; [reflexivity|]); (split; [split; [|split; [|split]]; proj; assumption|]); proj; auto. }
    destruct X as (c2 & S2 & R2 & [L2|L2]).
    + destruct (end_scan c2 l fin) as (c3 & C3 & R3 & L3); [destruct R2 as (_ & _ & _ & E); congruence|exact L2|].
      exists c3. split; [eapply can_step; [|exact S2|exact C3]; reflexivity|]. split; [exact (same_trans _ _ _ R2 R3)|exact L3].
    + exists c2. split; [eapply can_step; [|exact S2|apply can_refl]; reflexivity|]. split; [exact R2|]. rewrite L2. reflexivity.
  - exists c. split; [apply can_refl|]. split; [repeat split|]. rewrite LP. reflexivity.
  - exists c. split; [apply can_refl|]. split; [repeat split|]. rewrite LP. reflexivity.
Qed.

(** the queue of the other executor empties *)
Definition nrec (l : list task) : nat := sumf (fun t => if tw t then 0 else 1) l.
Definition same_all (c c' : cfg) : Prop := same_rest c c' /\ lpx c' = lpx c.
Lemma drain_one : forall c t q, hpx c = HpDrain -> que c = t :: q ->
  exists c' back, can c c' /\ same_all c c' /\ hpx c' = HpDrain /\ que c' = q ++ back /\ nrec back = 0 /\ length back <= 1
    /\ (back = [] \/ exists m n, t = TWrite m n /\ iffy (md c m) = true)
    /\ (forall m, iffy (md c' m) = true -> iffy (md c m) = true).
Proof.
  intros c t q HP Q. set (c1 := with_q c q (HpRun t true)).
  assert (S1 : step c LHpTake = Some c1) by (cbn [sstep]; rewrite Q, HP; reflexivity).
  destruct (run_task c1 t true) as [c2 back] eqn:RT.
  pose proof (run_task_fields _ _ _ _ _ RT) as (F1 & F2 & F3 & F4 & F5 & F6 & F7 & _).
  assert (S2 : step c1 (LHpRun true) = Some (with_q c2 (q ++ back) HpDrain)).
  { cbn [sstep]. change (hpx c1) with (HpRun t true). cbv iota. rewrite RT. reflexivity. }
  exists (with_q c2 (q ++ back) HpDrain), back. split; [eapply can_step; [|exact S1|eapply can_step; [|exact S2|apply can_refl]]; reflexivity|].
  split; [split; [split; [|split; [|split]]|]; proj; assumption|]. split; [reflexivity|]. split; [reflexivity|].
  destruct t as [m n|m]; cbn [run_task] in RT.
  - change (md c1 m) with (md c m) in RT. destruct (iffy (md c m)) eqn:IF.
    + injection RT as <- <-. split; [reflexivity|]. split; [cbn; lia|]. split; [right; exists m, n; auto|]. intros k X. exact X.
    + destruct (Nat.eqb n 0); injection RT as <- <-; (split; [reflexivity|]); (split; [cbn; lia|]); (split; [now left|]); intros k X; [exact X|].
      proj. unfold upd in X. destruct (Nat.eqb_spec k m) as [E|]; proj; [congruence|exact X].
  - injection RT as <- <-. split; [reflexivity|]. split; [cbn; lia|]. split; [now left|]. intros k X. proj. unfold upd in X.
    destruct (Nat.eqb_spec k m) as [E|]; proj; [discriminate X|exact X].
Qed.
Lemma same_all_trans : forall a b c, same_all a b -> same_all b c -> same_all a c.
Proof. intros a b c [A B] [A' B']. split; [exact (same_trans _ _ _ A A')|congruence]. Qed.
(** all tasks of [q] are taken once *)
Lemma drain_many : forall q c r, hpx c = HpDrain -> que c = q ++ r ->
  exists c' back, can c c' /\ same_all c c' /\ hpx c' = HpDrain /\ que c' = r ++ back /\ nrec back = 0 /\ length back <= length q.
Proof.
  induction q as [|t q IH]; intros c r HP Q.
  - exists c, []. split; [apply can_refl|]. split; [split; [repeat split|reflexivity]|]. split; [exact HP|]. rewrite app_nil_r. split; [exact Q|]. split; [reflexivity|cbn; lia].
  - destruct (drain_one c t (q ++ r) HP Q) as (c1 & b1 & C1 & R1 & H1 & Q1 & N1 & L1 & _). rewrite <- app_assoc in Q1.
    destruct (IH c1 (r ++ b1) H1 Q1) as (c2 & b2 & C2 & R2 & H2 & Q2 & N2 & L2). exists c2, (b1 ++ b2).
    split; [exact (can_trans _ _ _ C1 C2)|]. split; [exact (same_all_trans _ _ _ R1 R2)|]. split; [exact H2|]. split; [rewrite app_assoc; exact Q2|].
    split; [unfold nrec in *; rewrite sumf_app; lia|]. rewrite app_length. cbn [length]. lia.
Qed.
Lemma drain_writes : forall n c, hpx c = HpDrain -> length (que c) <= n -> (forall m, iffy (md c m) = false) ->
  exists c', can c c' /\ same_all c c' /\ hpx c' = HpDrain /\ que c' = [].
Proof.
  induction n as [|n IH]; intros c HP L IF.
  - exists c. split; [apply can_refl|]. split; [split; [repeat split|reflexivity]|]. split; [exact HP|]. destruct (que c); [reflexivity|cbn in L; lia].
  - destruct (que c) as [|t q] eqn:Q.
    { exists c. split; [apply can_refl|]. split; [split; [repeat split|reflexivity]|]. split; [exact HP|exact Q]. }
    destruct (drain_one c t q HP Q) as (c1 & b1 & C1 & R1 & H1 & Q1 & N1 & L1 & B1 & I1).
    destruct B1 as [->|(m & k & _ & X)]; [|rewrite IF in X; discriminate X]. rewrite app_nil_r in Q1.
    destruct (IH c1 H1) as (c2 & C2 & R2 & H2 & Q2).
    + rewrite Q1. cbn [length] in L. lia.
    + intros m. destruct (iffy (md c1 m)) eqn:X; [|reflexivity]. apply I1 in X. rewrite IF in X. discriminate X.
    + exists c2. split; [exact (can_trans _ _ _ C1 C2)|]. split; [exact (same_all_trans _ _ _ R1 R2)|]. auto.
Qed.
Lemma nrec_zero : forall l m, nrec l = 0 -> ~ In (TRecover m) l.
Proof.
  induction l as [|t l IH]; intros m Z I; [destruct I|]. unfold nrec in *. rewrite sumf_cons in Z. destruct I as [->|I]; [cbn [tw] in Z; lia|]. apply (IH m); [lia|exact I].
Qed.
Lemma drain_all : forall c, live c -> hpx c = HpDrain -> exists c', can c c' /\ same_all c c' /\ hpx c' = HpDrain /\ que c' = [].
Proof.
  intros c LV HP. destruct (drain_many (que c) c [] HP) as (c1 & b & C1 & R1 & H1 & Q1 & N1 & L1); [now rewrite app_nil_r|]. cbn [app] in Q1.
  destruct (drain_writes (length (que c1)) c1 H1 (le_n _)) as (c2 & C2 & R2 & H2 & Q2).
  - intros m. destruct (iffy (md c1 m)) eqn:X; [|reflexivity]. pose proof (live_can _ _ LV C1) as [A _].
    destruct (A m X) as [Y|[Y|[d Y]]]; [congruence| |congruence]. rewrite Q1 in Y. destruct (nrec_zero _ _ N1 Y).
  - exists c2. split; [exact (can_trans _ _ _ C1 C2)|]. split; [exact (same_all_trans _ _ _ R1 R2)|]. auto.
Qed.
Lemma end_hp : forall c, live c -> senders c = 0 -> exists c', can c c' /\ same_all c c' /\ hpx c' = HpExit.
Proof.
  intros c LV S0.
  assert (DR : forall d, live d -> hpx d = HpDrain -> exists c', can d c' /\ same_all d c' /\ hpx c' = HpExit).
  { intros d LD HD. destruct (drain_all d LD HD) as (c1 & C1 & R1 & H1 & Q1). exists (with_q c1 [] HpExit).
    split; [apply (can_trans _ _ _ C1); eapply (can_step c1 LHpEnd); [reflexivity|cbn [sstep]; rewrite Q1, H1; reflexivity|apply can_refl]|].
    split; [exact (same_all_trans _ _ (with_q c1 [] HpExit) R1 (conj (conj eq_refl (conj eq_refl (conj eq_refl eq_refl))) eq_refl))|reflexivity]. }
  assert (WT : forall d, live d -> senders d = 0 -> hpx d = HpWait -> exists c', can d c' /\ same_all d c' /\ hpx c' = HpExit).
  { intros d LD SD HD. assert (S1 : step d LHpSig = Some (with_q d (que d) HpDrain)) by (cbn [sstep]; rewrite HD; unfold signalled; rewrite SD; reflexivity).
    destruct (DR (with_q d (que d) HpDrain)) as (c1 & C1 & R1 & H1); [exact (step_live _ _ _ LD S1)|reflexivity|]. exists c1.
    split; [eapply can_step; [|exact S1|exact C1]; reflexivity|]. split; [exact R1|exact H1]. }
  destruct (hpx c) as [|t dr| |] eqn:HP.
  - exact (WT c LV S0 HP).
  - destruct (run_task c t true) as [c1 back] eqn:RT. pose proof (run_task_fields _ _ _ _ _ RT) as (F1 & F2 & F3 & F4 & F5 & F6 & F7 & _).
    set (c2 := with_q c1 (que c ++ back) (if dr then HpDrain else HpWait)).
    assert (S1 : step c (LHpRun true) = Some c2) by (cbn [sstep]; rewrite HP, RT; reflexivity).
    assert (R2 : same_all c c2) by (split; [split; [|split; [|split]]|]; assumption).
    assert (X : exists c', can c2 c' /\ same_all c2 c' /\ hpx c' = HpExit).
    { pose proof (step_live _ _ _ LV S1) as L2. destruct dr; [apply DR; [exact L2|reflexivity]|apply WT; [exact L2|cbn; congruence|reflexivity]]. }
    destruct X as (c3 & C3 & R3 & H3). exists c3. split; [eapply can_step; [|exact S1|exact C3]; reflexivity|]. split; [exact (same_all_trans _ _ _ R2 R3)|exact H3].
  - exact (DR c LV HP).
  - exists c. split; [apply can_refl|]. split; [split; [repeat split|reflexivity]|exact HP].
Qed.

Lemma shutdown_can_end : forall c, sound c -> live c -> exists c', can c c' /\ mainx c' = MClosed.
Proof.
  intros c S0 LV. destruct (mainx c) eqn:MM; try (exists c; split; [apply can_refl|exact MM]; fail).
  all: assert (MN : mainx c <> MClosed) by congruence; clear MM.
  all: destruct (end_ddl _ c (le_n _)) as (c1 & C1 & D1 & M1 & N1).
  all: destruct (end_stmts _ c1 (le_n _) D1) as (c2 & C2 & R2 & D2 & M2 & N2).
  all: pose proof (can_trans _ _ _ C1 C2) as C02; pose proof (sound_can _ _ S0 C02) as S2; pose proof (live_can _ _ LV C02) as L2.
  all: assert (X : exists c3, can c2 c3 /\ hs c3 = hs c2 /\ ddl c3 = [] /\ late (mainx c3) = true /\ mainx c3 <> MClosed /\ senders c3 = 0).
  all: try (destruct S2 as (_ & _ & SH & _); pose proof (sh_sig _ SH) as SG; destruct (mainx c2) eqn:ME;
    [ set (d := with_main c2 MDrop (senders c2));
      assert (SD : step c2 LTerm = Some d) by (cbn [sstep]; rewrite ME; reflexivity);
      destruct (end_senders (senders c2) d eq_refl eq_refl) as (c3 & C3 & A3 & B3 & E3 & F3);
        [intros Z; apply SG in Z; discriminate Z|];
      exists c3; split; [eapply can_step; [|exact SD|exact C3]; reflexivity|]; rewrite E3; split; [exact A3|]; split; [rewrite B3; exact D2|]; split; [reflexivity|]; split; [discriminate|exact F3]
    | destruct (end_senders (senders c2) c2 eq_refl ME) as (c3 & C3 & A3 & B3 & E3 & F3);
        [intros Z; apply SG in Z; discriminate Z|];
      exists c3; split; [exact C3|]; rewrite E3; split; [exact A3|]; split; [rewrite B3; exact D2|]; split; [reflexivity|]; split; [discriminate|exact F3]
    | exists c2; split; [apply can_refl|]; rewrite ME; split; [reflexivity|]; split; [exact D2|]; split; [reflexivity|]; split; [discriminate|apply SG; reflexivity]
    | exists c2; split; [apply can_refl|]; rewrite ME; split; [reflexivity|]; split; [exact D2|]; split; [reflexivity|]; split; [discriminate|apply SG; reflexivity]
    | congruence ]).
  all: destruct X as (c3 & C3 & A3 & D3 & LT3 & MC3 & F3); pose proof (can_trans _ _ _ C02 C3) as C03; pose proof (live_can _ _ LV C03) as L3.
  all: destruct (end_handlers _ c3 (le_n _)) as (c4 & C4 & O4 & D4 & M4 & F4); [rewrite A3; exact R2|exact D3|exact (lv_ddl _ L3)|exact F3|].
  all: destruct (end_lp c4 F4) as (c5 & C5 & (A5 & D5 & M5 & F5) & LO5).
  all: pose proof (can_trans _ _ _ (can_trans _ _ _ C03 C4) C5) as C05; pose proof (live_can _ _ LV C05) as L5.
  all: destruct (end_hp c5 L5) as (c6 & C6 & ((A6 & D6 & M6 & F6) & LP6) & HP6); [congruence|].
  all: pose proof (can_trans _ _ _ C05 C6) as C06.
  all: assert (OV : forallb over (hs c6) = true) by (rewrite A6, A5; exact O4).
  all: assert (DD6 : ddl c6 = []) by congruence.
  all: assert (LO6 : lp_over (lpx c6) = true) by (rewrite LP6; exact LO5).
  all: assert (ME6 : mainx c6 = mainx c3) by congruence.
  all: assert (J : forall d, mainx d = MJoin -> hpx d = HpExit -> lp_over (lpx d) = true -> ddl d = [] -> exists c', can d c' /\ mainx c' = MClosed)
    by (intros d A B C D; exists (with_main d MClosed (senders d)); split; [eapply (can_step d LJoin); [reflexivity|cbn [sstep]; rewrite A, B, D; destruct (lpx d); try discriminate C; reflexivity|apply can_refl]|reflexivity]).
  all: assert (Z : exists c', can c6 c' /\ mainx c' = MClosed).
  all: try (rewrite <- ME6 in LT3, MC3; destruct (mainx c6) eqn:E6; try discriminate LT3;
    [ set (d := with_main c6 MJoin (senders c6)); assert (SD : step c6 LFin = Some d) by (cbn [sstep]; rewrite E6, OV; reflexivity);
      destruct (J d eq_refl HP6 LO6 DD6) as (c7 & C7 & M7); exists c7; split; [eapply can_step; [|exact SD|exact C7]; reflexivity|exact M7]
    | exact (J c6 E6 HP6 LO6 DD6)
    | congruence ]).
  all: destruct Z as (c7 & C7 & M7); exists c7; split; [exact (can_trans _ _ _ C06 C7)|exact M7].
Qed.

End S.
