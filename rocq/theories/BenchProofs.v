(** Proofs about the benchmark's engines. *)
From Coq Require Import List Arith NArith Bool Lia Permutation.
From Verif Require Import BenchModel.
Import ListNotations.
Open Scope N_scope.

Definition sender (m : msg) : nat := match m with Res i _ _ _ _ => i | Err i => i end.
Definition zero (p : pc) : bool :=
  match p with POkay x => x =? 0 | PSend | PDead => true | _ => false end.

Lemma upd_same : forall f i w, upd f i w i = w.
Proof. intros. unfold upd. rewrite Nat.eqb_refl. reflexivity. Qed.
Lemma upd_other : forall f i w j, j <> i -> upd f i w j = f j.
Proof. intros. unfold upd. destruct (Nat.eqb_spec j i); congruence. Qed.

Lemma all_ws_spec : forall n f t, all_ws n f t = true <-> forall i, (i < n)%nat -> t (wpc (f i)) = true.
Proof.
  intros. unfold all_ws. rewrite forallb_forall. split.
  - intros H i L. apply H. apply in_seq. lia.
  - intros H i L. apply H. apply in_seq in L. lia.
Qed.

Section Inv.
Variable rookie : bool.
Variable n : nat.
Hypothesis n_pos : (0 < n)%nat.

Record InvA (s : sys) : Prop := {
  a_next : main s = MNext -> chan s = [] /\ (forall i, (i < n)%nat -> wpc (ws s i) = PIdle) /\ okay s = true;
  a_ok : main s = MOk -> chan s = [] /\ (forall i, (i < n)%nat -> wpc (ws s i) = PIdle) /\ okay s = true /\ todo s = [];
  a_nodup : forall from, main s = MWait from -> NoDup (from ++ map sender (chan s));
  a_sent : forall from i, main s = MWait from -> In i (from ++ map sender (chan s)) -> (i < n)%nat /\ wpc (ws s i) = PIdle;
  a_few : forall from, main s = MWait from -> (length from < n)%nat;
  a_idle : forall from i, main s = MWait from -> okay s = true -> (i < n)%nat -> wpc (ws s i) = PIdle ->
           In i (from ++ map sender (chan s));
  a_okay : okay s = false -> main s = MFail \/ (exists i, In (Err i) (chan s)) \/ exists i, (i < n)%nat /\ wpc (ws s i) = PErr;
  a_zero : forall i, (i < n)%nat -> zero (wpc (ws s i)) = true -> target s = 0;
  a_res : forall i t e h l, In (Res i t e h l) (chan s) -> target s = 0;
  a_from : forall from, main s = MWait from -> from <> [] -> target s = 0;
  (* a worker that read the flag as false did so after the failure *)
  a_flag : forall i c, (i < n)%nat -> (wpc (ws s i) = PTarget (Some false) \/ wpc (ws s i) = PCas (Some false) c) -> okay s = false
}.

Lemma invA_init : forall t cs, InvA (init t cs).
Proof.
  intros. constructor; cbn; intros; try discriminate; try contradiction; auto.
  destruct H0; discriminate.
Qed.

(** a step of a worker that sends nothing and keeps the flag *)
Lemma invA_local : forall s i w' tg,
  InvA s -> (i < n)%nat -> wpc (ws s i) <> PIdle -> wpc (ws s i) <> PErr ->
  tg <= target s ->
  (zero (wpc w') = true -> tg = 0) ->
  (wpc w' = PIdle -> okay s = false) ->
  (forall c, wpc w' = PTarget (Some false) \/ wpc w' = PCas (Some false) c -> okay s = false) ->
  forall lg, InvA (Sy (now s) tg (okay s) (upd (ws s) i w') (chan s) (main s) (todo s) (cur s) (phase s)
     (gstart s) (gstop s) (ghead s) (gtail s) (stats s) lg).
Proof.
  intros s i w' tg H L NI NE T Z NJ FL lg. destruct H. constructor; cbn [main chan okay ws target todo].
  - intro M. destruct (a_next0 M) as [_ [A _]]. elim NI. apply A, L.
  - intro M. destruct (a_ok0 M) as [_ [A _]]. elim NI. apply A, L.
  - auto.
  - intros from j M I. destruct (a_sent0 _ _ M I) as [A B]. split; [exact A|].
    rewrite upd_other; [exact B|]. intro E. subst j. contradiction.
  - auto.
  - intros from j M O J P. destruct (Nat.eq_dec j i) as [E|E].
    + subst j. rewrite upd_same in P. rewrite (NJ P) in O. discriminate O.
    + rewrite upd_other in P by exact E. eauto.
  - intro O. destruct (a_okay0 O) as [A|[A|[j [J A]]]]; [auto|auto|]. right. right. exists j. split; [exact J|].
    rewrite upd_other; [exact A|]. intro E. subst j. contradiction.
  - intros j J P. destruct (Nat.eq_dec j i) as [E|E].
    + subst j. rewrite upd_same in P. auto.
    + rewrite upd_other in P by exact E. pose proof (a_zero0 j J P). lia.
  - intros j t e h l I. pose proof (a_res0 _ _ _ _ _ I). lia.
  - intros from M NF. pose proof (a_from0 _ M NF). lia.
  - intros j c J P. destruct (Nat.eq_dec j i) as [E|E].
    + subst j. rewrite upd_same in P. eauto.
    + rewrite upd_other in P by exact E. eauto.
Qed.

Lemma invA_wstep : forall s i g s', InvA s -> (i < n)%nat -> wstep rookie s i g = Some s' -> InvA s'.
Proof.
  intros s i g s' H L ST. unfold wstep in ST.
  assert (FZ : forall b, wpc (ws s i) = PTarget (Some b) -> b = false -> okay s = false)
    by (intros b P B; subst b; exact (a_flag _ H i 0 L (or_introl P))).
  assert (FC : forall b c, wpc (ws s i) = PCas (Some b) c -> b = false -> okay s = false)
    by (intros b c P B; subst b; exact (a_flag _ H i c L (or_intror P))).
  destruct (wpc (ws s i)) eqn:P; try discriminate ST.
  - (* queued *) injection ST as <-.
    apply invA_local; auto; try (rewrite P; discriminate); try lia.
    + cbn. destruct rookie; discriminate.
    + cbn. destruct rookie; discriminate.
    + cbn. intros c [A|A]; [|destruct rookie; discriminate A]. destruct rookie; [|discriminate A].
      injection A as A. exact A.
  - (* load *) injection ST as <-.
    apply invA_local; auto; try (rewrite P; discriminate); try lia.
    + cbn. unfold loaded. destruct (target s =? 0) eqn:Z; [|discriminate]. intros _. apply N.eqb_eq in Z. lia.
    + cbn. unfold loaded. destruct (target s =? 0) eqn:Z; [|discriminate]. unfold got.
      destruct b as [[|]|]; cbn; try discriminate. intros _. apply (FZ false); auto.
    + cbn. unfold loaded. intros c. destruct (target s =? 0) eqn:Z.
      * unfold got. destruct b as [[|]|]; cbn; intros [A|A]; discriminate A.
      * intros [A|A]; [discriminate A|]. injection A as A _. subst b. apply (FZ false); auto.
  - (* swap *) destruct (target s =? c) eqn:T.
    + injection ST as <-. apply N.eqb_eq in T.
      apply invA_local; auto; try (rewrite P; discriminate); try lia.
      * cbn. unfold got. destruct b as [[|]|]; cbn; unfold test; try discriminate.
        { destruct (c =? 0) eqn:Z; cbn; [|discriminate]. intros _. apply N.eqb_eq in Z. lia. }
        { rewrite andb_false_r. discriminate. }
        { intro Z. apply N.eqb_eq in Z. lia. }
      * cbn. unfold got. destruct b as [[|]|]; cbn; unfold test; try discriminate.
        { destruct (c =? 0); cbn; discriminate. }
        { intros _. apply (FC false c); auto. }
      * cbn. unfold got. intros d. destruct b as [[|]|]; cbn; unfold test; try (intros [A|A]; discriminate A).
        { destruct (c =? 0); cbn; intros [A|A]; discriminate A. }
        { rewrite andb_false_r. intros [A|A]; discriminate A. }
    + injection ST as <-.
      apply invA_local; auto; try (rewrite P; discriminate); try lia.
      * cbn. unfold loaded. destruct (target s =? 0) eqn:Z; [|discriminate]. intros _. apply N.eqb_eq in Z. lia.
      * cbn. unfold loaded. destruct (target s =? 0) eqn:Z; [|discriminate]. unfold got.
        destruct b as [[|]|]; cbn; try discriminate. intros _. apply (FC false c); auto.
      * cbn. unfold loaded. intros d. destruct (target s =? 0) eqn:Z.
        { unfold got. destruct b as [[|]|]; cbn; intros [A|A]; discriminate A. }
        { intros [A|A]; [discriminate A|]. injection A as A _. subst b. apply (FC false c); auto. }
  - (* flag *) injection ST as <-.
    apply invA_local; auto; try (rewrite P; discriminate); try lia.
    + cbn. unfold test. destruct (pos =? 0) eqn:Z; cbn.
      * intros _. apply (a_zero _ H i L). rewrite P. exact Z.
      * destruct (okay s); discriminate.
    + cbn. unfold test. destruct (pos =? 0) eqn:Z; cbn; destruct (okay s); auto; discriminate.
    + cbn. intros c. unfold test. destruct (pos =? 0) eqn:Z; cbn; destruct (okay s); auto; intros [A|A]; discriminate A.
  - (* send query *) injection ST as <-.
    apply invA_local; auto; try (rewrite P; discriminate); try lia; try (cbn; discriminate).
    cbn. intros c [A|A]; discriminate A.
  - (* answered *) injection ST as <-.
    apply invA_local; auto; try (rewrite P; discriminate); try lia; try (destruct g; cbn; discriminate).
    destruct g; cbn; intros c [A|A]; discriminate A.
  - (* flag set *) injection ST as <-. destruct H. constructor; cbn [main chan okay ws target todo].
    + intro M. destruct (a_next0 M) as [_ [A _]]. rewrite (A i L) in P. discriminate P.
    + intro M. destruct (a_ok0 M) as [_ [A _]]. rewrite (A i L) in P. discriminate P.
    + auto.
    + intros from j M I. destruct (a_sent0 _ _ M I) as [A B]. split; [exact A|].
      rewrite upd_other; [exact B|]. intro E. subst j. congruence.
    + auto.
    + intros from j M O. discriminate O.
    + intros _. right. right. exists i. split; [exact L|]. rewrite upd_same. reflexivity.
    + intros j J Q. destruct (Nat.eq_dec j i) as [E|E].
      * subst j. rewrite upd_same in Q. discriminate Q.
      * rewrite upd_other in Q by exact E. eauto.
    + auto.
    + auto.
    + auto.
  - (* error sent *) injection ST as <-. destruct H. constructor; cbn [main chan okay ws target todo].
    + intro M. destruct (a_next0 M) as [_ [A _]]. rewrite (A i L) in P. discriminate P.
    + intro M. destruct (a_ok0 M) as [_ [A _]]. rewrite (A i L) in P. discriminate P.
    + intros from M. rewrite map_app, app_assoc. cbn. apply NoDup_Add with (a := i) (l := from ++ map sender (chan s)).
      * rewrite <- (app_nil_r (from ++ map sender (chan s))) at 1. apply Add_app.
      * split; [auto|]. intro I. destruct (a_sent0 _ _ M I) as [_ B]. congruence.
    + intros from j M I. rewrite map_app, app_assoc in I. apply in_app_or in I. destruct I as [I|[E|[]]].
      * destruct (a_sent0 _ _ M I) as [A B]. split; [exact A|]. rewrite upd_other; [exact B|]. intro E. subst j. congruence.
      * cbn in E. subst j. split; [exact L|]. rewrite upd_same. reflexivity.
    + auto.
    + intros from j M O J Q. rewrite map_app, app_assoc. apply in_or_app. destruct (Nat.eq_dec j i) as [E|E].
      * subst j. right. left. reflexivity.
      * rewrite upd_other in Q by exact E. left. eauto.
    + intro O. right. left. exists i. apply in_or_app. right. left. reflexivity.
    + intros j J Q. destruct (Nat.eq_dec j i) as [E|E].
      * subst j. rewrite upd_same in Q. discriminate Q.
      * rewrite upd_other in Q by exact E. eauto.
    + intros j t e h l I. apply in_app_or in I. destruct I as [I|[E|[]]]; [eauto|discriminate E].
    + auto.
    + intros j c J Q. destruct (Nat.eq_dec j i) as [E|E].
      * subst j. rewrite upd_same in Q. cbn in Q. destruct Q as [Q|Q]; discriminate Q.
      * rewrite upd_other in Q by exact E. eauto.
  - (* figures sent *) destruct (wstart (ws s i)) as [t|] eqn:WT; injection ST as <-.
    + assert (T0 : target s = 0) by (apply (a_zero _ H i L); rewrite P; reflexivity).
      destruct H. constructor; cbn [main chan okay ws target todo].
      * intro M. destruct (a_next0 M) as [_ [A _]]. rewrite (A i L) in P. discriminate P.
      * intro M. destruct (a_ok0 M) as [_ [A _]]. rewrite (A i L) in P. discriminate P.
      * intros from M. rewrite map_app, app_assoc. cbn. apply NoDup_Add with (a := i) (l := from ++ map sender (chan s)).
        { rewrite <- (app_nil_r (from ++ map sender (chan s))) at 1. apply Add_app. }
        { split; [auto|]. intro I. destruct (a_sent0 _ _ M I) as [_ B]. congruence. }
      * intros from j M I. rewrite map_app, app_assoc in I. apply in_app_or in I. destruct I as [I|[E|[]]].
        { destruct (a_sent0 _ _ M I) as [A B]. split; [exact A|]. rewrite upd_other; [exact B|]. intro E. subst j. congruence. }
        { cbn in E. subst j. split; [exact L|]. rewrite upd_same. reflexivity. }
      * auto.
      * intros from j M O J Q. rewrite map_app, app_assoc. apply in_or_app. destruct (Nat.eq_dec j i) as [E|E].
        { subst j. right. left. reflexivity. }
        { rewrite upd_other in Q by exact E. left. eauto. }
      * intro O. destruct (a_okay0 O) as [A|[[j A]|[j [J A]]]]; [auto| |].
        { right. left. exists j. apply in_or_app. left. exact A. }
        { right. right. exists j. split; [exact J|]. rewrite upd_other; [exact A|]. intro E. subst j. congruence. }
      * auto.
      * auto.
      * auto.
      * intros j c J Q. destruct (Nat.eq_dec j i) as [E|E].
        { subst j. rewrite upd_same in Q. cbn in Q. destruct Q as [Q|Q]; discriminate Q. }
        { rewrite upd_other in Q by exact E. eauto. }
    + assert (T0 : target s = 0) by (apply (a_zero _ H i L); rewrite P; reflexivity).
      apply invA_local; auto; try (rewrite P; discriminate); try lia; try (cbn; discriminate).
      cbn. intros c [A|A]; discriminate A.
Qed.

Lemma full_set : forall l, NoDup l -> (forall i, In i l -> (i < n)%nat) -> length l = n ->
  forall i, (i < n)%nat -> In i l.
Proof.
  intros l ND B LN i L. assert (I : incl (seq 0 n) l).
  { apply NoDup_length_incl; [exact ND|rewrite seq_length; lia|]. intros x X. apply in_seq. specialize (B x X). lia. }
  apply I. apply in_seq. lia.
Qed.

Lemma few_set : forall l, NoDup l -> (forall i, In i l -> (i < n)%nat) -> (length l <= n)%nat.
Proof.
  intros l ND B. rewrite <- (seq_length n 0). apply NoDup_incl_length; [exact ND|].
  intros x X. apply in_seq. specialize (B x X). lia.
Qed.

(** when the last result is received, nothing else is going on *)
Lemma last_result : forall s from i t e h l q, InvA s -> main s = MWait from -> chan s = Res i t e h l :: q ->
  S (length from) = n ->
  q = [] /\ (forall j, (j < n)%nat -> In j (from ++ [i])) /\ (forall j, (j < n)%nat -> wpc (ws s j) = PIdle) /\ okay s = true /\ target s = 0.
Proof.
  intros s from i t e h l q H M C LN.
  pose proof (a_nodup _ H _ M) as ND. pose proof (fun j => a_sent _ H _ j M) as SE. rewrite C in ND, SE. cbn in ND, SE.
  assert (B : (length (from ++ i :: map sender q) <= n)%nat) by (apply few_set; [exact ND|intros j J; apply (SE j J)]).
  rewrite app_length in B. cbn in B. destruct q as [|m q]; [|cbn in B; lia].
  split; [reflexivity|]. cbn in ND, SE.
  assert (AL : forall j, (j < n)%nat -> In j (from ++ [i])).
  { apply full_set; [exact ND|intros j J; apply (SE j J)|]. rewrite app_length. cbn. lia. }
  assert (ID : forall j, (j < n)%nat -> wpc (ws s j) = PIdle) by (intros j J; apply (SE j (AL j J))).
  split; [exact AL|]. split; [exact ID|]. split.
  - destruct (okay s) eqn:O; [reflexivity|]. exfalso. destruct (a_okay _ H O) as [A|[[j A]|[j [J A]]]].
    + congruence.
    + rewrite C in A. destruct A as [A|[]]. discriminate A.
    + rewrite (ID j J) in A. discriminate A.
  - apply (a_res _ H i t e h l). rewrite C. left. reflexivity.
Qed.

Lemma invA_mstep : forall s s', InvA s -> mstep rookie n s = Some s' -> InvA s'.
Proof.
  intros s s' H ST. unfold mstep in ST. destruct (main s) as [|from| |] eqn:M; try discriminate ST.
  - destruct (a_next _ H M) as [C [ID O]].
    destruct (todo s) as [|c r] eqn:TD.
    + injection ST as <-. destruct H. constructor; cbn [main chan okay ws target todo setm]; auto; intros; try discriminate.
      rewrite H in O. discriminate O.
    + assert (ALL : all_ws n (ws s) is_idle = true) by (apply all_ws_spec; intros i L; rewrite (ID i L); reflexivity).
      rewrite ALL in ST.
      destruct (all_ws n (ws s) (fun p => is_idle p || is_dead p)) eqn:AL2; [|discriminate ST]. injection ST as <-.
      assert (Q : forall i, (i < n)%nat -> (if Nat.ltb i n then at_ (ws s i) PQueued else ws s i) = at_ (ws s i) PQueued).
      { intros i L. apply Nat.ltb_lt in L. rewrite L. reflexivity. }
      constructor; cbn [main chan okay ws target todo]; intros.
      * discriminate.
      * discriminate.
      * injection H0 as <-. rewrite C. constructor.
      * injection H0 as <-. rewrite C in H1. destruct H1.
      * injection H0 as <-. exact n_pos.
      * rewrite Q in H3 by assumption. discriminate H3.
      * rewrite H0 in O. discriminate O.
      * rewrite Q in H1 by assumption. discriminate H1.
      * rewrite C in H0. destruct H0.
      * injection H0 as <-. elim H1. reflexivity.
      * rewrite Q in H1 by assumption. destruct H1 as [A|A]; discriminate A.
  - destruct (chan s) as [|[i t e h l|i] q] eqn:C.
    + destruct (all_ws n (ws s) is_dead); [|discriminate ST]. injection ST as <-.
      destruct H. rewrite C in *. constructor; cbn [main chan okay ws target todo setm]; intros; try discriminate; eauto.
      rewrite C in H. destruct H.
    + destruct (Nat.eqb_spec (S (length from)) n) as [LN|LN].
      * destruct (last_result _ _ _ _ _ _ _ _ H M C LN) as [Q [AL [ID [O T]]]]. subst q.
        assert (OO : (if rookie then true else okay s) = true) by (destruct rookie; auto).
        assert (TT : (if rookie then 0 else target s) = 0) by (destruct rookie; auto).
        injection ST as <-. rewrite OO, TT.
        constructor; cbn [main chan okay ws target todo]; intros; try discriminate; auto.
        rewrite (ID i0 H0) in H1. destruct H1 as [A|A]; discriminate A.
      * injection ST as <-.
        assert (T0 : target s = 0) by (apply (a_res _ H i t e h l); rewrite C; left; reflexivity).
        pose proof (a_few _ H _ M) as FW. destruct H. rewrite C in *.
        constructor; cbn [main chan okay ws target todo]; intros; try discriminate.
        { injection H as <-. specialize (a_nodup0 _ M). cbn in a_nodup0. rewrite <- app_assoc. exact a_nodup0. }
        { injection H as <-. rewrite <- app_assoc in H0. apply (a_sent0 _ _ M). exact H0. }
        { injection H as <-. rewrite app_length. cbn. lia. }
        { injection H as <-. rewrite <- app_assoc. apply (a_idle0 _ _ M); assumption. }
        { destruct (a_okay0 H) as [A|[[j [A|A]]|A]]; [congruence|discriminate A| |auto].
          right. left. exists j. exact A. }
        { exact T0. }
        { exact T0. }
        { exact T0. }
        { eauto. }
    + injection ST as <-. destruct H. rewrite C in *. constructor; cbn [main chan okay ws target todo]; intros; try discriminate; auto.
      * eauto.
      * eapply a_res0. right. eassumption.
      * eauto.
Qed.

Lemma invA_step : forall s l s', InvA s -> step rookie n s l = Some s' -> InvA s'.
Proof.
  intros s [d|i g|] s' H ST; unfold step in ST.
  - injection ST as <-. destruct H. constructor; auto.
  - destruct (Nat.ltb_spec i n) as [L|L]; [|discriminate ST]. eapply invA_wstep; eauto.
  - eapply invA_mstep; eauto.
Qed.

(** ---- which keys are where ---- *)
Definition keys (c : N) : list N := map N.of_nat (seq 1 (N.to_nat c)).
Definition held (p : pc) : list N :=
  match p with POkay x | PReady x | PFly x _ => if x =? 0 then [] else [x] | _ => [] end.
Definition holding (f : nat -> worker) : list N := flat_map (fun i => held (wpc (f i))) (seq 0 n).
Definition of_phase (k : nat) (l : list entry) : list entry := filter (fun e => Nat.eqb (e_ph e) k) l.

Lemma keys_pred : forall c, c <> 0 -> Permutation (keys c) (c :: keys (c - 1)).
Proof.
  intros c Z. unfold keys. replace (N.to_nat c) with (S (N.to_nat (c - 1))) by lia.
  rewrite seq_S, map_app. cbn [map]. replace (N.of_nat (1 + N.to_nat (c - 1))) with c by lia.
  symmetry. apply Permutation_cons_append.
Qed.

Lemma flat_map_ext_in : forall (A B : Type) (f g : A -> list B) l, (forall a, In a l -> f a = g a) -> flat_map f l = flat_map g l.
Proof.
  intros A B f g l. induction l as [|x r IH]; intro H; cbn; [reflexivity|].
  rewrite (H x) by (left; reflexivity). rewrite IH; [reflexivity|]. intros a I. apply H. right. exact I.
Qed.

Lemma holding_upd : forall f i, (i < n)%nat -> exists a b,
  holding f = a ++ held (wpc (f i)) ++ b /\ forall w, holding (upd f i w) = a ++ held (wpc w) ++ b.
Proof.
  intros f i L. destruct (in_split i (seq 0 n)) as [l1 [l2 E]]; [apply in_seq; lia|].
  assert (ND : NoDup (l1 ++ i :: l2)) by (rewrite <- E; apply seq_NoDup).
  assert (N1 : ~ In i l1) by (intro I; apply (NoDup_remove_2 _ _ _ ND), in_or_app; auto).
  assert (N2 : ~ In i l2) by (intro I; apply (NoDup_remove_2 _ _ _ ND), in_or_app; auto).
  exists (flat_map (fun j => held (wpc (f j))) l1), (flat_map (fun j => held (wpc (f j))) l2).
  unfold holding. rewrite E. split; [rewrite flat_map_app; reflexivity|].
  intro w. rewrite flat_map_app. cbn [flat_map]. rewrite upd_same. f_equal; [|f_equal].
  - apply flat_map_ext_in. intros j J. rewrite upd_other; [reflexivity|]. intro X. subst j. contradiction.
  - apply flat_map_ext_in. intros j J. rewrite upd_other; [reflexivity|]. intro X. subst j. contradiction.
Qed.

Definition running (s : sys) : Prop := (exists from, main s = MWait from) \/ main s = MFail.

(** the keys of the phase running *)
Definition InvK (s : sys) : Prop :=
  running s -> exists lost,
    Permutation (keys (target s) ++ holding (ws s) ++ map e_pos (of_phase (phase s) (log s)) ++ lost) (keys (cur s)) /\
    (okay s = true -> lost = []).

(** the phases done *)
Record InvH (counts : list N) (s : sys) : Prop := {
  h_counts : exists dn, counts = dn ++ (match main s with MNext | MOk => todo s | _ => cur s :: todo s end) /\ length dn = phase s /\
     forall k c, nth_error dn k = Some c -> Permutation (map e_pos (of_phase k (log s))) (keys c);
  h_le : forall e, In e (log s) -> (e_ph e <= phase s)%nat;
  h_lt : forall e, In e (log s) -> main s = MNext \/ main s = MOk -> (e_ph e < phase s)%nat;
  h_bad : forall e, In e (log s) -> e_ok e = false -> okay s = false \/ exists i, (i < n)%nat /\ wpc (ws s i) = PPost;
  h_w : forall e, In e (log s) -> (e_w e < n)%nat;
  (* times *)
  t_log : forall e, In e (log s) -> e_t0 e <= e_t1 e <= now s;
  t_fly : forall i p t, (i < n)%nat -> wpc (ws s i) = PFly p t -> t <= now s /\
     forall e, In e (log s) -> (e_ph e < phase s)%nat \/ e_w e = i -> e_t1 e <= t;
  t_order : forall e f, In e (log s) -> In f (log s) -> (e_ph e < e_ph f)%nat -> e_t1 e <= e_t0 f;
  t_reset : forall i, (i < n)%nat -> main s = MNext \/ main s = MOk -> wpc (ws s i) = PIdle
}.

(** a worker that gives up its key because it saw the flag *)
Lemma invK_move : forall s i w', InvK s -> (i < n)%nat ->
  held (wpc w') = held (wpc (ws s i)) \/ (held (wpc w') = [] /\ okay s = false) -> InvK (setw s i w').
Proof.
  intros s i w' H L C R. destruct (H R) as [lost [P O]]. cbn [setw target ws phase log cur okay].
  destruct (holding_upd (ws s) i L) as [a [b [E U]]]. rewrite U. rewrite E in P.
  destruct C as [C|[C F]].
  - rewrite C. exists lost. split; assumption.
  - rewrite C. exists (held (wpc (ws s i)) ++ lost). split; [|intro X; congruence]. rewrite <- P.
    apply Permutation_app_head. cbn [app]. rewrite <- !app_assoc. apply Permutation_app_head.
    rewrite !(app_assoc b). apply Permutation_app_swap_app.
Qed.

Lemma of_phase_app : forall k l m, of_phase k (l ++ m) = of_phase k l ++ of_phase k m.
Proof. intros. unfold of_phase. apply filter_app. Qed.

Lemma held_got0 : forall b, held (got b 0) = [].
Proof. intros [[|]|]; reflexivity. Qed.
Lemma held_loaded : forall b c, held (loaded b c) = [].
Proof. intros. unfold loaded. destruct (c =? 0); [apply held_got0|reflexivity]. Qed.

Lemma invK_wstep : forall s i g s', InvA s -> InvK s -> (i < n)%nat -> (forall x t, wpc (ws s i) = PFly x t -> x <> 0) ->
  wstep rookie s i g = Some s' -> InvK s'.
Proof.
  intros s i g s' HA H L NZ ST. unfold wstep in ST.
  destruct (wpc (ws s i)) eqn:P; try discriminate ST.
  - injection ST as <-. apply invK_move; auto. left. rewrite P. destruct rookie; reflexivity.
  - injection ST as <-. apply invK_move; auto. left. rewrite P. cbn. apply held_loaded.
  - destruct (target s =? c) eqn:T.
    + injection ST as <-. apply N.eqb_eq in T. subst c.
      destruct (N.eq_dec (target s) 0) as [Z|Z].
      * (* never happens: loaded values are not zero *)
        intros R. destruct (H R) as [lost [Q O]]. cbn [target ws phase log cur okay].
        destruct (holding_upd (ws s) i L) as [a [bb [E U]]]. rewrite U. rewrite E, P in Q. cbn [held app] in Q.
        exists lost. split; [|exact O]. rewrite Z in *. cbn [at_ wpc]. rewrite held_got0. exact Q.
      * intros R. destruct (H R) as [lost [Q O]]. cbn [target ws phase log cur okay].
        destruct (holding_upd (ws s) i L) as [a [bb [E U]]]. rewrite U. rewrite E, P in Q. cbn [held app] in Q.
        rewrite (keys_pred _ Z) in Q. cbn [at_ wpc].
        assert (CS : held (got b (target s)) = [target s] \/ (held (got b (target s)) = [] /\ okay s = false)).
        { apply N.eqb_neq in Z. destruct b as [[|]|]; cbn; unfold test; rewrite ?Z; cbn; rewrite ?Z; auto. right. split; [reflexivity|].
          apply (a_flag _ HA i (target s) L). right. exact P. }
        destruct CS as [CS|[CS F]]; rewrite CS.
        { exists lost. split; [|exact O]. rewrite <- Q. cbn [app]. rewrite <- !app_assoc. cbn [app].
          rewrite app_assoc. symmetry. rewrite (app_assoc (keys (target s - 1)) a). apply Permutation_middle. }
        { exists (target s :: lost). split; [|intro X; congruence]. rewrite <- Q. cbn [app].
          rewrite !app_assoc. symmetry. apply Permutation_middle. }
    + injection ST as <-. apply invK_move; auto. left. rewrite P. cbn. apply held_loaded.
  - injection ST as <-. apply invK_move; auto. rewrite P. cbn. unfold test.
    destruct (pos =? 0) eqn:Z; cbn.
    + left. destruct (okay s); reflexivity.
    + destruct (okay s) eqn:O; [left; cbn; rewrite Z; reflexivity|right; auto].
  - injection ST as <-. apply invK_move; auto. left. rewrite P. reflexivity.
  - injection ST as <-. intros R. destruct (H R) as [lost [Q O]]. cbn [target ws phase log cur okay].
    destruct (holding_upd (ws s) i L) as [a [bb [E U]]]. rewrite U. rewrite E, P in Q. cbn [held] in Q.
    specialize (NZ _ _ eq_refl). apply N.eqb_neq in NZ. rewrite NZ in Q.
    replace (held _) with (@nil N) by (destruct g; reflexivity). cbn [app].
    exists lost. split; [|exact O]. rewrite <- Q. apply Permutation_app_head.
    rewrite of_phase_app. cbn [of_phase filter e_ph]. rewrite Nat.eqb_refl. rewrite map_app. cbn [map e_pos app].
    rewrite <- !app_assoc. apply Permutation_app_head. cbn [app].
    rewrite !(app_assoc bb). symmetry. apply Permutation_middle.
  - injection ST as <-. intros R. destruct (H R) as [lost [Q O]]. cbn [target ws phase log cur okay].
    destruct (holding_upd (ws s) i L) as [a [bb [E U]]]. rewrite U. rewrite E, P in Q. cbn [held at_ wpc] in *.
    exists lost. split; [exact Q|discriminate].
  - injection ST as <-. intros R. destruct (H R) as [lost [Q O]]. cbn [target ws phase log cur okay].
    destruct (holding_upd (ws s) i L) as [a [bb [E U]]]. rewrite U. rewrite E, P in Q. cbn [held at_ wpc] in *.
    exists lost. split; [exact Q|exact O].
  - destruct (wstart (ws s i)) as [t|].
    + injection ST as <-. intros R. destruct (H R) as [lost [Q O]]. cbn [target ws phase log cur okay].
      destruct (holding_upd (ws s) i L) as [a [bb [E U]]]. rewrite U. rewrite E, P in Q. cbn [held at_ wpc] in *.
      exists lost. split; [exact Q|exact O].
    + injection ST as <-. apply invK_move; auto. left. rewrite P. reflexivity.
Qed.

(** positions in flight are real positions *)
Definition okpc (p : pc) : Prop := match p with PReady x | PFly x _ => x <> 0 | PCas _ c => c <> 0 | _ => True end.
Definition InvZ (s : sys) : Prop := forall i, (i < n)%nat -> okpc (wpc (ws s i)).

Lemma invZ_step : forall s l s', InvZ s -> step rookie n s l = Some s' -> InvZ s'.
Proof.
  intros s l s' H ST. destruct l as [d|i g|]; unfold step in ST.
  - injection ST as <-. exact H.
  - destruct (Nat.ltb_spec i n) as [L|L]; [|discriminate ST].
    assert (K : forall f w, (forall j, (j < n)%nat -> okpc (wpc (f j))) ->
      okpc (wpc w) ->
      forall j, (j < n)%nat -> okpc (wpc (upd f i w j))).
    { intros f w A B j J. destruct (Nat.eq_dec j i) as [E|E]; [subst j; rewrite upd_same; exact B|rewrite upd_other by exact E; exact (A j J)]. }
    assert (TE : forall x o, okpc (test x o)).
    { intros x o. unfold test. destruct (N.eqb_spec x 0); cbn; destruct o; cbn; auto. }
    assert (GO : forall b x, okpc (got b x)).
    { intros b x. destruct b as [o|]; cbn [got]; [apply TE|exact I]. }
    assert (LO : forall b x, okpc (loaded b x)).
    { intros b x. unfold loaded. destruct (N.eqb_spec x 0); [apply GO|assumption]. }
    pose proof (H i L) as HI. unfold wstep in ST. destruct (wpc (ws s i)) eqn:P; try discriminate ST.
    + injection ST as <-. intros j J; cbn [setw ws]; apply K; [exact H| |exact J]. destruct rookie; exact I.
    + injection ST as <-. intros j J; cbn [setw ws]; apply K; [exact H| |exact J]. apply LO.
    + destruct (target s =? c); injection ST as <-; (intros j J; cbn [setw ws]; apply K; [exact H| |exact J]); [apply GO|apply LO].
    + injection ST as <-. intros j J; cbn [setw ws]; apply K; [exact H| |exact J]. apply TE.
    + injection ST as <-. intros j J; cbn [setw ws]; apply K; [exact H| |exact J]. exact HI.
    + injection ST as <-. intros j J; cbn [setw ws]; apply K; [exact H| |exact J]. destruct g; exact I.
    + injection ST as <-. intros j J; cbn [setw ws]; apply K; [exact H| |exact J]. exact I.
    + injection ST as <-. intros j J; cbn [setw ws]; apply K; [exact H| |exact J]. exact I.
    + destruct (wstart (ws s i)); injection ST as <-; (intros j J; cbn [setw ws]; apply K; [exact H| |exact J]); exact I.
  - unfold mstep in ST. destruct (main s) as [|from| |]; try discriminate ST.
    + destruct (todo s); [injection ST as <-; exact H|].
      destruct (all_ws n (ws s) (fun p => is_idle p || is_dead p)); [|discriminate ST].
      destruct (all_ws n (ws s) is_idle); injection ST as <-; [|exact H].
      intros j J. cbn [ws]. apply Nat.ltb_lt in J. rewrite J. exact I.
    + destruct (chan s) as [|[i t e h tl|i] q].
      * destruct (all_ws n (ws s) is_dead); [|discriminate ST]. injection ST as <-. exact H.
      * destruct (Nat.eqb (S (length from)) n); injection ST as <-; exact H.
      * injection ST as <-. exact H.
Qed.

Lemma holding_nil : forall f, (forall i, (i < n)%nat -> held (wpc (f i)) = []) -> holding f = [].
Proof.
  intros f H. unfold holding. assert (A : forall i, In i (seq 0 n) -> held (wpc (f i)) = []) by (intros i I; apply in_seq in I; apply H; lia).
  induction (seq 0 n) as [|x r IH]; [reflexivity|]. cbn. rewrite (A x) by (left; reflexivity). apply IH. intros i I. apply A. right. exact I.
Qed.

Lemma of_phase_none : forall k l, (forall e, In e l -> e_ph e <> k) -> of_phase k l = [].
Proof.
  intros k l. induction l as [|e r IH]; intro H; [reflexivity|]. cbn. destruct (Nat.eqb_spec (e_ph e) k) as [E|E].
  - elim (H e); [left; reflexivity|exact E].
  - apply IH. intros f I. apply H. right. exact I.
Qed.

Lemma invK_mstep : forall cs s s', InvA s -> InvK s -> InvH cs s -> mstep rookie n s = Some s' -> InvK s'.
Proof.
  intros cs s s' HA HK HH ST. unfold mstep in ST. destruct (main s) as [|from| |] eqn:M; try discriminate ST.
  - destruct (a_next _ HA M) as [C [ID O]].
    destruct (todo s) as [|c r] eqn:TD.
    + injection ST as <-. intros [[f A]|A]; discriminate A.
    + assert (ALL : all_ws n (ws s) is_idle = true) by (apply all_ws_spec; intros i L; rewrite (ID i L); reflexivity).
      rewrite ALL in ST.
      destruct (all_ws n (ws s) (fun p => is_idle p || is_dead p)) eqn:AL2; [|discriminate ST]. injection ST as <-.
      intros _. exists []. cbn [target ws phase log cur okay]. split; [|reflexivity].
      rewrite holding_nil, of_phase_none.
      * cbn. rewrite app_nil_r. reflexivity.
      * intros e I E. pose proof (h_lt _ _ HH e I (or_introl M)). lia.
      * intros i L. apply Nat.ltb_lt in L. rewrite L. reflexivity.
  - assert (R : running s) by (left; exists from; exact M). destruct (HK R) as [lost [Q O]].
    destruct (chan s) as [|[i t e h l|i] q] eqn:C.
    + destruct (all_ws n (ws s) is_dead); [|discriminate ST]. injection ST as <-. intros _. exists lost. auto.
    + destruct (Nat.eqb_spec (S (length from)) n) as [LN|LN]; injection ST as <-.
      * intros [[f A]|A]; discriminate A.
      * intros _. exists lost. auto.
    + injection ST as <-. intros _. exists lost. auto.
Qed.

Lemma in_snoc : forall (A : Type) (l : list A) a x, In a (l ++ [x]) -> In a l \/ a = x.
Proof. intros A l a x I. apply in_app_or in I. destruct I as [I|[I|[]]]; auto. Qed.

(** a worker's step that logs nothing *)
Lemma invH_quiet : forall cs s i w' tg ok ch,
  InvA s -> InvH cs s -> (i < n)%nat -> wpc (ws s i) <> PIdle ->
  (wpc (ws s i) = PPost -> ok = false) -> (okay s = false -> ok = false) ->
  (forall p t, wpc w' = PFly p t -> t = now s) ->
  InvH cs (Sy (now s) tg ok (upd (ws s) i w') ch (main s) (todo s) (cur s) (phase s)
     (gstart s) (gstop s) (ghead s) (gtail s) (stats s) (log s)).
Proof.
  intros cs s i w' tg ok ch HA H L NI NP OK FL. destruct H.
  constructor; cbn [main todo cur phase log okay ws now].
  - exact h_counts0.
  - exact h_le0.
  - exact h_lt0.
  - intros e I B. destruct (h_bad0 e I B) as [A|[j [J A]]]; [left; auto|].
    destruct (Nat.eq_dec j i) as [E|E]; [subst j; left; auto|].
    right. exists j. split; [exact J|]. rewrite upd_other by exact E. exact A.
  - exact h_w0.
  - exact t_log0.
  - intros j p t J A. destruct (Nat.eq_dec j i) as [E|E].
    + subst j. rewrite upd_same in A. rewrite (FL _ _ A). split; [lia|]. intros e I _. apply (t_log0 e I).
    + rewrite upd_other in A by exact E. eauto.
  - exact t_order0.
  - intros j J M. exfalso. apply NI. apply t_reset0; assumption.
Qed.

Lemma fly_test : forall x o p t, test x o = PFly p t -> False.
Proof. intros x o p t. unfold test. destruct (negb (x =? 0) && o); [intro D; discriminate D|]. destruct o; intro D; discriminate D. Qed.
Lemma fly_got : forall b x p t, got b x = PFly p t -> False.
Proof. intros [o|] x p t; cbn; [apply fly_test|intro D; discriminate D]. Qed.
Lemma fly_loaded : forall b x p t, loaded b x = PFly p t -> False.
Proof. intros b x p t. unfold loaded. destruct (x =? 0); [apply fly_got|intro D; discriminate D]. Qed.

Lemma invH_wstep : forall cs s i g s', InvA s -> InvH cs s -> (i < n)%nat -> wstep rookie s i g = Some s' -> InvH cs s'.
Proof.
  intros cs s i g s' HA H L ST. unfold wstep in ST.
  destruct (wpc (ws s i)) eqn:P; try discriminate ST.
  - injection ST as <-. apply invH_quiet; auto; try (rewrite P; discriminate).
    cbn. intros p t D. destruct rookie; discriminate D.
  - injection ST as <-. apply invH_quiet; auto; try (rewrite P; discriminate).
    cbn. intros p t D. elim (fly_loaded _ _ _ _ D).
  - destruct (target s =? c); injection ST as <-; apply invH_quiet; auto; try (rewrite P; discriminate).
    + cbn. intros p t D. elim (fly_got _ _ _ _ D).
    + cbn. intros p t D. elim (fly_loaded _ _ _ _ D).
  - injection ST as <-. apply invH_quiet; auto; try (rewrite P; discriminate).
    cbn. intros p t D. elim (fly_test _ _ _ _ D).
  - injection ST as <-. apply invH_quiet; auto; try (rewrite P; discriminate).
    cbn. intros p t D. injection D as _ D. auto.
  - (* answered *)
    injection ST as <-.
    assert (NM : main s <> MNext /\ main s <> MOk).
    { split; intro M; pose proof (t_reset _ _ H i L) as X; rewrite P in X.
      - specialize (X (or_introl M)). discriminate X.
      - specialize (X (or_intror M)). discriminate X. }
    destruct NM as [NM1 NM2].
    destruct H. destruct (t_fly0 i pos t0 L P) as [TN TE].
    constructor; cbn [main todo cur phase log okay ws now].
    + destruct h_counts0 as [dn [A [B D]]]. exists dn. split; [exact A|]. split; [exact B|].
      intros k c K. rewrite of_phase_app. cbn [of_phase filter e_ph].
      assert (KL : (k < phase s)%nat) by (rewrite <- B; apply nth_error_Some; congruence).
      destruct (Nat.eqb_spec (phase s) k) as [X|X]; [lia|]. rewrite app_nil_r. exact (D k c K).
    + intros e I. apply in_snoc in I. destruct I as [I|I]; [auto|subst e; cbn; lia].
    + intros e I [M|M]; contradiction.
    + intros e I B. apply in_snoc in I. destruct I as [I|I].
      * destruct (h_bad0 e I B) as [A|[j [J A]]]; [auto|]. right. exists j. split; [exact J|].
        rewrite upd_other; [exact A|]. intro E. subst j. congruence.
      * subst e. cbn in B. subst g. right. exists i. split; [exact L|]. rewrite upd_same. reflexivity.
    + intros e I. apply in_snoc in I. destruct I as [I|I]; [auto|subst e; exact L].
    + intros e I. apply in_snoc in I. destruct I as [I|I]; [auto|subst e; cbn; lia].
    + intros j p t J A. destruct (Nat.eq_dec j i) as [E|E].
      * subst j. rewrite upd_same in A. destruct g; discriminate A.
      * rewrite upd_other in A by exact E. destruct (t_fly0 j p t J A) as [X Y]. split; [exact X|].
        intros e I Q. apply in_snoc in I. destruct I as [I|I]; [auto|]. subst e. cbn in Q. destruct Q; [lia|congruence].
    + intros e f I F Q. apply in_snoc in I. apply in_snoc in F. destruct I as [I|I], F as [F|F].
      * auto.
      * subst f. cbn in Q |- *. apply TE; auto.
      * subst e. cbn in Q. specialize (h_le0 f F). lia.
      * subst e f. cbn in Q. lia.
    + intros j J [M|M]; contradiction.
  - injection ST as <-. apply invH_quiet; auto; try (rewrite P; discriminate).
    cbn. intros p t D. discriminate D.
  - injection ST as <-. apply invH_quiet; auto; try (rewrite P; discriminate).
    cbn. intros p t D. discriminate D.
  - destruct (wstart (ws s i)); injection ST as <-; apply invH_quiet; auto; try (rewrite P; discriminate);
    cbn; intros p t D; discriminate D.
Qed.

Lemma invH_mstep : forall cs s s', InvA s -> InvK s -> InvH cs s -> mstep rookie n s = Some s' -> InvH cs s'.
Proof.
  intros cs s s' HA HK HH ST. unfold mstep in ST. destruct (main s) as [|from| |] eqn:M; try discriminate ST.
  - destruct (a_next _ HA M) as [C [ID O]].
    destruct (todo s) as [|c r] eqn:TD.
    + injection ST as <-. destruct HH. rewrite M in *. constructor; cbn [setm main todo cur phase log okay ws now]; auto.
    + assert (ALL : all_ws n (ws s) is_idle = true) by (apply all_ws_spec; intros i L; rewrite (ID i L); reflexivity).
      rewrite ALL in ST.
      destruct (all_ws n (ws s) (fun p => is_idle p || is_dead p)) eqn:AL2; [|discriminate ST]. injection ST as <-.
      assert (Q : forall i, (i < n)%nat -> (if Nat.ltb i n then at_ (ws s i) PQueued else ws s i) = at_ (ws s i) PQueued).
      { intros i L. apply Nat.ltb_lt in L. rewrite L. reflexivity. }
      destruct HH. constructor; cbn [main todo cur phase log okay ws now]; auto.
      * rewrite M, TD in h_counts0. exact h_counts0.
      * intros e I B. destruct (h_bad0 e I B) as [A|[j [J A]]]; [auto|]. rewrite (ID j J) in A. discriminate A.
      * intros i p t L A. rewrite Q in A by exact L. discriminate A.
      * intros i L [A|A]; discriminate A.
  - assert (R : running s) by (left; exists from; exact M). destruct (HK R) as [lost [Q O]].
    destruct (chan s) as [|[i t e h l|i] q] eqn:C.
    + destruct (all_ws n (ws s) is_dead); [|discriminate ST]. injection ST as <-. destruct HH. rewrite M in *.
      constructor; cbn [setm main todo cur phase log okay ws now]; auto.
      * intros x I [A|A]; discriminate A.
      * intros x I [A|A]; discriminate A.
    + destruct (Nat.eqb_spec (S (length from)) n) as [LN|LN].
      * destruct (last_result _ _ _ _ _ _ _ _ HA M C LN) as [QQ [AL [ID [OK T]]]]. injection ST as <-.
        rewrite (O OK) in Q. rewrite holding_nil, T in Q by (intros j J; rewrite (ID j J); reflexivity).
        cbn [keys N.to_nat seq map app] in Q. rewrite app_nil_r in Q.
        destruct HH. constructor; cbn [main todo cur phase log okay ws now]; auto.
        { destruct h_counts0 as [dn [A [B D]]]. rewrite M in A. exists (dn ++ [cur s]). split; [rewrite <- app_assoc; exact A|].
          split; [rewrite app_length; cbn; lia|]. intros k c K.
          destruct (Nat.lt_ge_cases k (length dn)) as [X|X].
          - rewrite nth_error_app1 in K by exact X. auto.
          - rewrite nth_error_app2 in K by exact X. destruct (k - length dn)%nat as [|y] eqn:Y; [|destruct y; discriminate K].
            cbn in K. injection K as <-. replace k with (phase s) by lia. exact Q. }
        { intros x I. specialize (h_le0 x I). lia. }
        { intros x I B. destruct (h_bad0 x I B) as [A|[j [J A]]]; [congruence|]. rewrite (ID j J) in A. discriminate A. }
        { intros j p u J A. rewrite (ID j J) in A. discriminate A. }
      * injection ST as <-. destruct HH. rewrite M in *. constructor; cbn [main todo cur phase log okay ws now]; auto.
        { intros x I [A|A]; discriminate A. }
        { intros x I [A|A]; discriminate A. }
    + injection ST as <-. destruct HH. rewrite M in *. constructor; cbn [main todo cur phase log okay ws now]; auto.
      { intros x I [A|A]; discriminate A. }
      { intros x I [A|A]; discriminate A. }
Qed.

Lemma invH_init : forall t cs, InvH cs (init t cs).
Proof.
  intros. constructor; cbn; intros; try contradiction; try discriminate; auto.
  exists []. split; [reflexivity|]. split; [reflexivity|]. intros k c K. destruct k; discriminate K.
Qed.

Definition Inv (cs : list N) (s : sys) : Prop := InvA s /\ InvZ s /\ InvK s /\ InvH cs s.

Lemma inv_init : forall t cs, Inv cs (init t cs).
Proof.
  intros. split; [apply invA_init|]. split; [intros i L; exact I|]. split; [|apply invH_init].
  intros [[f A]|A]; discriminate A.
Qed.

Lemma inv_step : forall cs s l s', Inv cs s -> step rookie n s l = Some s' -> Inv cs s'.
Proof.
  intros cs s l s' [HA [HZ [HK HH]]] ST. split; [eapply invA_step; eauto|]. split; [eapply invZ_step; eauto|].
  destruct l as [d|i g|]; unfold step in ST.
  - injection ST as <-. split; [exact HK|]. destruct HH. constructor; auto.
    + intros e I. cbn. specialize (t_log0 e I). lia.
    + intros i p t L A. destruct (t_fly0 i p t L A) as [X Y]. cbn. split; [lia|exact Y].
  - destruct (Nat.ltb_spec i n) as [L|L]; [|discriminate ST]. split.
    + eapply invK_wstep; eauto. intros x t P. pose proof (HZ i L) as Z. rewrite P in Z. exact Z.
    + eapply invH_wstep; eauto.
  - split; [eapply invK_mstep; eauto|eapply invH_mstep; eauto].
Qed.

Lemma inv_run : forall cs ls s s', Inv cs s -> run rookie n s ls = Some s' -> Inv cs s'.
Proof.
  intros cs ls. induction ls as [|l r IH]; intros s s' H R; cbn [run] in R.
  - injection R as <-. exact H.
  - destruct (step rookie n s l) as [s1|] eqn:ST; [|discriminate R]. eapply IH; [|exact R]. eapply inv_step; eauto.
Qed.

(** ---- figures ---- *)
Definition mine (k i : nat) (l : list entry) : list entry := filter (fun e => Nat.eqb (e_ph e) k && Nat.eqb (e_w e) i) l.
Definition dur (e : entry) : N := e_t1 e - e_t0 e.
Fixpoint busy (l : list entry) : N := match l with [] => 0 | e :: r => dur e + busy r end.
Definition first (l : list entry) : N := match l with [] => 0 | e :: _ => e_t0 e end.

Definition lowest (h : N) (P : entry -> Prop) : Prop := (forall e, P e -> h <= dur e) /\ (h = u128_max \/ exists e, P e /\ h = dur e).
Definition highest (h : N) (P : entry -> Prop) : Prop := (forall e, P e -> dur e <= h) /\ (h = 0 \/ exists e, P e /\ h = dur e).

Definition figs (l : list entry) (o : option N) (el h tl : N) : Prop :=
  o = hd_error (map e_t0 l) /\ el = busy l /\ lowest h (fun e => In e l) /\ highest tl (fun e => In e l).

Definition active (p : pc) : bool :=
  match p with PTarget _ | PCas _ _ | POkay _ | PReady _ | PFly _ _ | PSend => true | _ => false end.

Record gfigs (ph : nat) (lg : list entry) (from : list nat) (gs ge : option N) (gh gt : N) : Prop := {
  g_some : forall i, In i from -> mine ph i lg <> [];
  g_low : lowest gh (fun e => exists i, In i from /\ In e (mine ph i lg));
  g_high : highest gt (fun e => exists i, In i from /\ In e (mine ph i lg));
  g_start : match gs with
            | None => from = []
            | Some a => (forall i, In i from -> a <= first (mine ph i lg)) /\ exists i, In i from /\ a = first (mine ph i lg)
            end;
  g_stop : match ge with
           | None => from = []
           | Some b => (forall i, In i from -> first (mine ph i lg) + busy (mine ph i lg) <= b) /\
                       exists i, In i from /\ b = first (mine ph i lg) + busy (mine ph i lg)
           end
}.

(** the figures of a phase, said of its queries alone *)
Definition stat_spec (k : nat) (lg : list entry) (st : stat) : Prop :=
  (forall i, (i < n)%nat -> mine k i lg <> []) /\
  lowest (s_head st) (fun e => In e (of_phase k lg)) /\
  highest (s_tail st) (fun e => In e (of_phase k lg)) /\
  exists a b, s_elapsed st = b - a /\
    ((forall i, (i < n)%nat -> a <= first (mine k i lg)) /\ exists i, (i < n)%nat /\ a = first (mine k i lg)) /\
    ((forall i, (i < n)%nat -> first (mine k i lg) + busy (mine k i lg) <= b) /\
     exists i, (i < n)%nat /\ b = first (mine k i lg) + busy (mine k i lg)).

Record InvF (counts : list N) (s : sys) : Prop := {
  f_act : forall from i, main s = MWait from -> (i < n)%nat -> active (wpc (ws s i)) = true ->
          figs (mine (phase s) i (log s)) (wstart (ws s i)) (wel (ws s i)) (whead (ws s i)) (wtail (ws s i));
  f_queued : forall from i, main s = MWait from -> (i < n)%nat -> wpc (ws s i) = PQueued -> mine (phase s) i (log s) = [];
  f_res : forall from i t e h l, main s = MWait from -> In (Res i t e h l) (chan s) -> figs (mine (phase s) i (log s)) (Some t) e h l;
  f_from : forall from, main s = MWait from -> gfigs (phase s) (log s) from (gstart s) (gstop s) (ghead s) (gtail s);
  f_len : length (stats s) = phase s;
  f_stats : forall k st, nth_error (stats s) k = Some st -> stat_spec k (log s) st /\ nth_error counts k = Some (s_count st);
  (* what a worker does, it does in order *)
  f_seq : forall k i, let l := mine k i (log s) in
          (forall e, In e l -> first l <= e_t0 e) /\ (l = [] \/ exists e, In e l /\ first l + busy l <= e_t1 e)
}.

Lemma mine_app : forall k i l m, mine k i (l ++ m) = mine k i l ++ mine k i m.
Proof. intros. unfold mine. apply filter_app. Qed.
Lemma mine_other : forall k i l e, e_ph e <> k \/ e_w e <> i -> mine k i (l ++ [e]) = mine k i l.
Proof.
  intros k i l e H. rewrite mine_app. cbn [mine filter].
  destruct (Nat.eqb_spec (e_ph e) k), (Nat.eqb_spec (e_w e) i); cbn [andb]; try apply app_nil_r. destruct H; contradiction.
Qed.
Lemma mine_same : forall l e, mine (e_ph e) (e_w e) (l ++ [e]) = mine (e_ph e) (e_w e) l ++ [e].
Proof. intros. rewrite mine_app. cbn [mine filter]. rewrite !Nat.eqb_refl. reflexivity. Qed.
Lemma of_phase_other : forall k l e, e_ph e <> k -> of_phase k (l ++ [e]) = of_phase k l.
Proof. intros k l e H. rewrite of_phase_app. cbn [of_phase filter]. destruct (Nat.eqb_spec (e_ph e) k); [contradiction|apply app_nil_r]. Qed.
Lemma in_mine : forall k i l e, In e (mine k i l) <-> In e l /\ e_ph e = k /\ e_w e = i.
Proof.
  intros. unfold mine. rewrite filter_In, andb_true_iff, !Nat.eqb_eq. tauto.
Qed.
Lemma in_phase : forall k l e, In e (of_phase k l) <-> In e l /\ e_ph e = k.
Proof. intros. unfold of_phase. rewrite filter_In, Nat.eqb_eq. tauto. Qed.

Lemma busy_app : forall l m, busy (l ++ m) = busy l + busy m.
Proof. induction l as [|e r IH]; intro m; cbn; [lia|rewrite IH; lia]. Qed.
Lemma first_app : forall l e, first (l ++ [e]) = match l with [] => e_t0 e | _ => first l end.
Proof. intros [|x r] e; reflexivity. Qed.

Lemma figs_snoc : forall l e o el h tl, figs l o el h tl ->
  figs (l ++ [e]) (match o with None => Some (e_t0 e) | _ => o end) (el + dur e)
       (if dur e <? h then dur e else h) (if tl <? dur e then dur e else tl).
Proof.
  intros l e o el h tl [A [B [[L1 L2] [H1 H2]]]]. split; [|split; [|split; split]].
  - subst o. destruct l; reflexivity.
  - rewrite busy_app. cbn. lia.
  - intros x X. apply in_snoc in X. destruct (N.ltb_spec (dur e) h) as [D|D]; destruct X as [X|X].
    + specialize (L1 x X). lia.
    + subst x. lia.
    + auto.
    + subst x. exact D.
  - destruct (N.ltb_spec (dur e) h) as [D|D].
    + right. exists e. split; [apply in_or_app; right; left; reflexivity|reflexivity].
    + destruct L2 as [L2|[x [X E]]]; [left; exact L2|right; exists x; split; [apply in_or_app; left; exact X|exact E]].
  - intros x X. apply in_snoc in X. destruct (N.ltb_spec tl (dur e)) as [D|D]; destruct X as [X|X].
    + specialize (H1 x X). lia.
    + subst x. lia.
    + auto.
    + subst x. exact D.
  - destruct (N.ltb_spec tl (dur e)) as [D|D].
    + right. exists e. split; [apply in_or_app; right; left; reflexivity|reflexivity].
    + destruct H2 as [H2|[x [X E]]]; [left; exact H2|right; exists x; split; [apply in_or_app; left; exact X|exact E]].
Qed.

Lemma figs_nil : figs [] None 0 u128_max 0.
Proof.
  split; [reflexivity|]. split; [reflexivity|]. split; split; auto; intros e [].
Qed.

Lemma stat_spec_other : forall k l e st, e_ph e <> k -> stat_spec k l st -> stat_spec k (l ++ [e]) st.
Proof.
  intros k l e st NE [A [B [C [a [b [D [[E1 [i1 [E2 E3]]] [F1 [i2 [F2 F3]]]]]]]]]].
  assert (MO : forall i, mine k i (l ++ [e]) = mine k i l) by (intro i; apply mine_other; auto).
  unfold stat_spec. rewrite (of_phase_other k l e NE). split; [intros i L; rewrite MO; auto|]. split; [exact B|]. split; [exact C|].
  exists a, b. split; [exact D|]. split; split.
  - intros i L. rewrite MO. auto.
  - exists i1. rewrite MO. auto.
  - intros i L. rewrite MO. auto.
  - exists i2. rewrite MO. auto.
Qed.

(** a worker's step that logs nothing *)
Lemma invF_quiet : forall cs s i w' tg ok ch,
  InvA s -> InvF cs s -> (i < n)%nat ->
  (forall from, main s = MWait from -> active (wpc w') = true ->
     figs (mine (phase s) i (log s)) (wstart w') (wel w') (whead w') (wtail w')) ->
  wpc w' <> PQueued ->
  (forall from j t e h l, main s = MWait from -> In (Res j t e h l) ch -> In (Res j t e h l) (chan s) \/
     (j = i /\ figs (mine (phase s) i (log s)) (Some t) e h l)) ->
  InvF cs (Sy (now s) tg ok (upd (ws s) i w') ch (main s) (todo s) (cur s) (phase s)
     (gstart s) (gstop s) (ghead s) (gtail s) (stats s) (log s)).
Proof.
  intros cs s i w' tg ok ch HA H L FA NQ CH. destruct H.
  constructor; cbn [main todo cur phase log okay ws now chan gstart gstop ghead gtail stats]; auto.
  - intros from j M J A. destruct (Nat.eq_dec j i) as [E|E].
    + subst j. rewrite upd_same in *. eauto.
    + rewrite upd_other in * by exact E. eauto.
  - intros from j M J A. destruct (Nat.eq_dec j i) as [E|E].
    + subst j. rewrite upd_same in A. contradiction.
    + rewrite upd_other in A by exact E. eauto.
  - intros from j t e h l M I. destruct (CH _ _ _ _ _ _ M I) as [A|[A B]]; [eauto|]. subst j. exact B.
Qed.

Lemma invF_wstep : forall cs s i g s', InvA s -> InvH cs s -> InvF cs s -> (i < n)%nat -> wstep rookie s i g = Some s' -> InvF cs s'.
Proof.
  intros cs s i g s' HA HH H L ST. unfold wstep in ST.
  assert (AC : forall from p, main s = MWait from -> active (wpc (ws s i)) = true ->
     figs (mine (phase s) i (log s)) (wstart (at_ (ws s i) p)) (wel (at_ (ws s i) p)) (whead (at_ (ws s i) p)) (wtail (at_ (ws s i) p)))
    by (intros from p M A; exact (f_act _ _ H from i M L A)).
  destruct (wpc (ws s i)) eqn:P; try discriminate ST.
  - injection ST as <-. apply invF_quiet; auto.
    + intros from M _. rewrite (f_queued _ _ H _ _ M L P). apply figs_nil.
    + cbn. destruct rookie; intro D; discriminate D.
  - injection ST as <-. apply invF_quiet; auto.
    + intros from M _. eapply AC; eauto.
    + cbn. unfold loaded. destruct (target s =? 0); [|intro D; discriminate D]. destruct b as [[|]|]; intro D; discriminate D.
  - destruct (target s =? c); injection ST as <-; apply invF_quiet; auto.
    + intros from M _. eapply AC; eauto.
    + cbn. destruct b as [[|]|]; cbn; unfold test; try (intro D; discriminate D).
      * destruct (negb (c =? 0)); intro D; discriminate D.
      * rewrite andb_false_r. intro D; discriminate D.
    + intros from M _. eapply AC; eauto.
    + cbn. unfold loaded. destruct (target s =? 0); [|intro D; discriminate D]. destruct b as [[|]|]; intro D; discriminate D.
  - injection ST as <-. apply invF_quiet; auto.
    + intros from M _. eapply AC; eauto.
    + cbn. unfold test. destruct (negb (pos =? 0) && okay s); [intro D; discriminate D|]. destruct (okay s); intro D; discriminate D.
  - injection ST as <-. apply invF_quiet; auto.
    + intros from M _. eapply AC; eauto.
    + cbn. intro D; discriminate D.
  - (* answered *)
    injection ST as <-. set (e := E (phase s) pos i t0 (now s) g) in *.
    pose proof (t_fly _ _ HH i pos t0 L P) as [TN TE].
    assert (OT : forall j, j <> i -> mine (phase s) j (log s ++ [e]) = mine (phase s) j (log s))
      by (intros j J; apply mine_other; right; cbn; congruence).
    assert (SM : mine (phase s) i (log s ++ [e]) = mine (phase s) i (log s) ++ [e]) by (apply (mine_same (log s) e)).
    assert (NS : forall from j, main s = MWait from -> In j (from ++ map sender (chan s)) -> j <> i).
    { intros from j M I E. subst j. destruct (a_sent _ HA _ _ M I) as [_ X]. congruence. }
    destruct H. constructor; cbn [main todo cur phase log okay ws now chan gstart gstop ghead gtail stats].
    + intros from j M J A. destruct (Nat.eq_dec j i) as [E|E].
      * subst j. rewrite upd_same in *. rewrite SM. destruct g; [|discriminate A].
        pose proof (figs_snoc _ e _ _ _ _ (AC from PIdle M eq_refl)) as F. cbn [at_ wstart wel whead wtail] in *.
        change (dur e) with (now s - t0) in F. change (e_t0 e) with t0 in F.
        destruct (wstart (ws s i)); exact F.
      * rewrite upd_other in * by exact E. rewrite OT by exact E. eauto.
    + intros from j M J A. destruct (Nat.eq_dec j i) as [E|E].
      * subst j. rewrite upd_same in A. destruct g; discriminate A.
      * rewrite upd_other in A by exact E. rewrite OT by exact E. eauto.
    + intros from j t x h l M I. rewrite OT; [eauto|]. apply (NS from j M). apply in_or_app. right. apply (in_map sender) in I. exact I.
    + intros from M. specialize (f_from0 from M).
      assert (EQ : forall j, In j from -> mine (phase s) j (log s ++ [e]) = mine (phase s) j (log s)).
      { intros j J. apply OT. apply (NS from j M). apply in_or_app. left. exact J. }
      destruct f_from0 as [G1 [G2 G2'] [G3 G3'] G4 G5]. constructor.
      * intros j J. rewrite EQ by exact J. auto.
      * split.
        { intros x [j [J X]]. rewrite EQ in X by exact J. apply G2. eauto. }
        { destruct G2' as [X|[x [[j [J X]] Y]]]; [auto|]. right. exists x. split; [|exact Y]. exists j. rewrite EQ by exact J. auto. }
      * split.
        { intros x [j [J X]]. rewrite EQ in X by exact J. apply G3. eauto. }
        { destruct G3' as [X|[x [[j [J X]] Y]]]; [auto|]. right. exists x. split; [|exact Y]. exists j. rewrite EQ by exact J. auto. }
      * destruct (gstart s); [|exact G4]. destruct G4 as [A [j [J B]]]. split; [|exists j; rewrite EQ by exact J; auto].
        intros k K. rewrite EQ by exact K. auto.
      * destruct (gstop s); [|exact G5]. destruct G5 as [A [j [J B]]]. split; [|exists j; rewrite EQ by exact J; auto].
        intros k K. rewrite EQ by exact K. auto.
    + exact f_len0.
    + intros k st K. destruct (f_stats0 k st K) as [A B]. split; [|exact B]. apply stat_spec_other; [|exact A].
      cbn. assert (k < length (stats s))%nat by (apply nth_error_Some; congruence). lia.
    + intros k j. destruct (Nat.eq_dec k (phase s)) as [EK|EK]; [destruct (Nat.eq_dec j i) as [EJ|EJ]|].
      * subst k j. rewrite SM. destruct (f_seq0 (phase s) i) as [A B]. set (l := mine (phase s) i (log s)) in *.
        assert (BE : forall x, In x l -> e_t1 x <= t0) by (intros x X; apply in_mine in X; destruct X as [X [_ X2]]; apply TE; auto).
        assert (BT : forall x, In x l -> e_t0 x <= e_t1 x) by (intros x X; apply in_mine in X; destruct X as [X _]; apply (t_log _ _ HH x X)).
        rewrite first_app, busy_app. destruct l as [|y r].
        { cbn [app]. split.
          - intros x [X|[]]. subst x. lia.
          - right. exists e. split; [left; reflexivity|]. cbn. unfold dur. cbn. lia. }
        { split.
          - intros x X. apply in_snoc in X. destruct X as [X|X]; [apply A; exact X|]. subst x. cbn [e_t0 e].
            specialize (BE y (or_introl eq_refl)). specialize (BT y (or_introl eq_refl)). cbn [first]. lia.
          - right. exists e. split; [apply in_or_app; right; left; reflexivity|].
            destruct B as [B|[x [X B]]]; [discriminate B|]. specialize (BE x X). replace (busy [e]) with (now s - t0) by (cbn; unfold dur; cbn; lia).
            change (e_t1 e) with (now s). lia. }
      * rewrite mine_other by (right; cbn; congruence). apply f_seq0.
      * rewrite mine_other by (left; cbn; congruence). apply f_seq0.
  - injection ST as <-. apply invF_quiet; auto.
    + intros from M D. discriminate D.
    + cbn. intro D; discriminate D.
  - injection ST as <-. apply invF_quiet; auto.
    + intros from M D. discriminate D.
    + cbn. intro D; discriminate D.
    + intros from j t e h l M I. apply in_snoc in I. destruct I as [I|I]; [auto|discriminate I].
  - destruct (wstart (ws s i)) as [t|] eqn:WT; injection ST as <-; apply invF_quiet; auto.
    + intros from M D. discriminate D.
    + cbn. intro D; discriminate D.
    + intros from j t' e h l M I. apply in_snoc in I. destruct I as [I|I]; [auto|]. right. injection I as -> -> -> -> ->.
      split; [reflexivity|]. pose proof (AC from PIdle M eq_refl) as F. cbn in F. rewrite WT in F. exact F.
    + intros from M D. discriminate D.
    + cbn. intro D; discriminate D.
Qed.

Lemma gfigs_snoc : forall ph lg from i gs ge gh gt t el h tl,
  gfigs ph lg from gs ge gh gt -> figs (mine ph i lg) (Some t) el h tl ->
  gfigs ph lg (from ++ [i]) (Some (omin gs t)) (Some (omax ge (t + el))) (if h <? gh then h else gh) (if gt <? tl then tl else gt).
Proof.
  intros ph lg from i gs ge gh gt t el h tl [G1 [G2 G2'] [G3 G3'] G4 G5] [F1 [F2 [[F3 F3'] [F4 F4']]]].
  assert (NE : mine ph i lg <> [] /\ t = first (mine ph i lg)).
  { destruct (mine ph i lg) as [|x r]; [discriminate F1|]. split; [discriminate|]. cbn in F1. injection F1 as F1. exact F1. }
  destruct NE as [NE FT]. constructor.
  - intros j J. apply in_snoc in J. destruct J as [J|J]; [auto|subst j; exact NE].
  - split.
    + intros e [j [J X]]. apply in_snoc in J. destruct (N.ltb_spec h gh) as [D|D]; destruct J as [J|J].
      * assert (gh <= dur e) by (apply G2; eauto). lia.
      * subst j. apply F3. exact X.
      * apply G2. eauto.
      * subst j. specialize (F3 e X). lia.
    + destruct (N.ltb_spec h gh) as [D|D].
      * destruct F3' as [X|[e [X Y]]]; [auto|]. right. exists e. split; [|exact Y]. exists i. split; [apply in_or_app; right; left; reflexivity|exact X].
      * destruct G2' as [X|[e [[j [J X]] Y]]]; [auto|]. right. exists e. split; [|exact Y]. exists j. split; [apply in_or_app; left; exact J|exact X].
  - split.
    + intros e [j [J X]]. apply in_snoc in J. destruct (N.ltb_spec gt tl) as [D|D]; destruct J as [J|J].
      * assert (dur e <= gt) by (apply G3; eauto). lia.
      * subst j. apply F4. exact X.
      * apply G3. eauto.
      * subst j. specialize (F4 e X). lia.
    + destruct (N.ltb_spec gt tl) as [D|D].
      * destruct F4' as [X|[e [X Y]]]; [auto|]. right. exists e. split; [|exact Y]. exists i. split; [apply in_or_app; right; left; reflexivity|exact X].
      * destruct G3' as [X|[e [[j [J X]] Y]]]; [auto|]. right. exists e. split; [|exact Y]. exists j. split; [apply in_or_app; left; exact J|exact X].
  - destruct gs as [a|]; cbn [omin].
    + destruct G4 as [A [k [K B]]]. destruct (N.ltb_spec t a) as [D|D].
      * split; [|exists i; split; [apply in_or_app; right; left; reflexivity|exact FT]].
        intros j J. apply in_snoc in J. destruct J as [J|J]; [specialize (A j J); lia|subst j; lia].
      * split; [|exists k; split; [apply in_or_app; left; exact K|exact B]].
        intros j J. apply in_snoc in J. destruct J as [J|J]; [auto|subst j; lia].
    + subst from. cbn [app]. split; [|exists i; split; [left; reflexivity|exact FT]]. intros j [J|[]]. subst j. lia.
  - subst el. rewrite FT. destruct ge as [a|]; cbn [omax].
    + destruct G5 as [A [k [K B]]]. destruct (N.ltb_spec a (first (mine ph i lg) + busy (mine ph i lg))) as [D|D].
      * split; [|exists i; split; [apply in_or_app; right; left; reflexivity|reflexivity]].
        intros j J. apply in_snoc in J. destruct J as [J|J]; [specialize (A j J); lia|subst j; lia].
      * split; [|exists k; split; [apply in_or_app; left; exact K|exact B]].
        intros j J. apply in_snoc in J. destruct J as [J|J]; [auto|subst j; lia].
    + subst from. cbn [app]. split; [|exists i; split; [left; reflexivity|reflexivity]]. intros j [J|[]]. subst j. lia.
Qed.

Lemma invF_mstep : forall cs s s', InvA s -> InvH cs s -> InvF cs s -> mstep rookie n s = Some s' -> InvF cs s'.
Proof.
  intros cs s s' HA HH H ST. unfold mstep in ST. destruct (main s) as [|from| |] eqn:M; try discriminate ST.
  - destruct (a_next _ HA M) as [C [ID O]].
    assert (LT : forall i, mine (phase s) i (log s) = []).
    { intro i. destruct (mine (phase s) i (log s)) as [|x r] eqn:Q; [reflexivity|].
      assert (I : In x (mine (phase s) i (log s))) by (rewrite Q; left; reflexivity). apply in_mine in I. destruct I as [I [E _]].
      pose proof (h_lt _ _ HH x I (or_introl M)). lia. }
    destruct (todo s) as [|c r] eqn:TD.
    + injection ST as <-. destruct H. constructor; cbn [setm main todo cur phase log okay ws now chan gstart gstop ghead gtail stats]; auto;
      intros; discriminate.
    + assert (ALL : all_ws n (ws s) is_idle = true) by (apply all_ws_spec; intros i L; rewrite (ID i L); reflexivity).
      rewrite ALL in ST.
      destruct (all_ws n (ws s) (fun p => is_idle p || is_dead p)) eqn:AL2; [|discriminate ST]. injection ST as <-.
      assert (Q : forall i, (i < n)%nat -> (if Nat.ltb i n then at_ (ws s i) PQueued else ws s i) = at_ (ws s i) PQueued).
      { intros i L. apply Nat.ltb_lt in L. rewrite L. reflexivity. }
      destruct H. constructor; cbn [main todo cur phase log okay ws now chan gstart gstop ghead gtail stats]; auto.
      * intros from i _ L A. rewrite Q in A by exact L. discriminate A.
      * intros from i t e h l _ I. rewrite C in I. destruct I.
      * intros from E. injection E as <-. constructor; cbn; auto.
        { split; auto. intros e [i [[] _]]. }
        { split; auto. intros e [i [[] _]]. }
  - destruct (chan s) as [|[i t e h l|i] q] eqn:C.
    + destruct (all_ws n (ws s) is_dead); [|discriminate ST]. injection ST as <-. destruct H.
      constructor; cbn [setm main todo cur phase log okay ws now chan gstart gstop ghead gtail stats]; auto; intros; discriminate.
    + assert (G : gfigs (phase s) (log s) (from ++ [i]) (Some (omin (gstart s) t)) (Some (omax (gstop s) (t + e)))
        (if h <? ghead s then h else ghead s) (if gtail s <? l then l else gtail s)).
      { apply gfigs_snoc; [apply (f_from _ _ H _ M)|]. apply (f_res _ _ H from i t e h l M). rewrite C. left. reflexivity. }
      destruct (Nat.eqb_spec (S (length from)) n) as [LN|LN].
      * destruct (last_result _ _ _ _ _ _ _ _ HA M C LN) as [QQ [AL [ID [OK T]]]]. injection ST as <-.
        pose proof (h_w _ _ HH) as HW. pose proof (h_counts _ _ HH) as HC. rewrite M in HC.
        pose proof (fun j => a_sent _ HA _ j M) as SE. rewrite C, QQ in SE. cbn [map sender] in SE.
        destruct H. constructor; cbn [main todo cur phase log okay ws now chan gstart gstop ghead gtail stats]; auto; try (intros; discriminate).
        { rewrite app_length. cbn. lia. }
        { intros k st K. destruct (Nat.lt_ge_cases k (length (stats s))) as [X|X].
          - rewrite nth_error_app1 in K by exact X. auto.
          - rewrite nth_error_app2 in K by exact X. destruct (k - length (stats s))%nat as [|y] eqn:Y; [|destruct y; discriminate K].
            cbn in K. injection K as <-. replace k with (phase s) by lia. split.
            + destruct G as [G1 [G2 G2'] [G3 G3'] G4 G5].
              assert (EQ : forall x, In x (of_phase (phase s) (log s)) <-> exists j, In j (from ++ [i]) /\ In x (mine (phase s) j (log s))).
              { intro x. rewrite in_phase. split.
                - intros [A B]. exists (e_w x). split; [apply AL, HW, A|]. apply in_mine. auto.
                - intros [j [_ A]]. apply in_mine in A. tauto. }
              unfold stat_spec. cbn [s_head s_tail s_elapsed]. split; [|split; [|split]].
              * intros j J. auto.
              * split; [intros x X2; apply G2, EQ, X2|]. destruct G2' as [A|[x [A B]]]; [auto|]. right. exists x. split; [apply EQ; exact A|exact B].
              * split; [intros x X2; apply G3, EQ, X2|]. destruct G3' as [A|[x [A B]]]; [auto|]. right. exists x. split; [apply EQ; exact A|exact B].
              * eexists. eexists. split; [reflexivity|]. split; split.
                { intros j J. apply G4. auto. }
                { destruct G4 as [_ [j [J B]]]. exists j. split; [apply (SE j J)|exact B]. }
                { intros j J. apply G5. auto. }
                { destruct G5 as [_ [j [J B]]]. exists j. split; [apply (SE j J)|exact B]. }
            + cbn [s_count]. destruct HC as [dn [A [B _]]]. rewrite A, nth_error_app2 by lia. rewrite B, Nat.sub_diag. reflexivity. }
      * injection ST as <-. destruct H.
        constructor; cbn [main todo cur phase log okay ws now chan gstart gstop ghead gtail stats]; auto.
        { intros f j _. eauto. }
        { intros f j _. eauto. }
        { intros f j t' e' h' l' _ I. apply (f_res0 from j t' e' h' l' M). rewrite C. right. exact I. }
        { intros f E. injection E as <-. exact G. }
    + injection ST as <-. destruct H.
      constructor; cbn [main todo cur phase log okay ws now chan gstart gstop ghead gtail stats]; auto; intros; discriminate.
Qed.

Lemma invF_init : forall t cs, InvF cs (init t cs).
Proof.
  intros. constructor; cbn; intros; try discriminate; auto.
  - destruct k; discriminate.
  - split; [intros e []|auto].
Qed.

Lemma invF_run : forall cs ls s s', Inv cs s -> InvF cs s -> run rookie n s ls = Some s' -> Inv cs s' /\ InvF cs s'.
Proof.
  intros cs ls. induction ls as [|l r IH]; intros s s' H F R; cbn [run] in R.
  - injection R as <-. auto.
  - destruct (step rookie n s l) as [s1|] eqn:ST; [|discriminate R]. eapply IH; [|clear R|exact R].
    + eapply inv_step; eauto.
    + destruct H as [HA [HZ [HK HH]]]. destruct l as [d|i g|]; unfold step in ST.
      * injection ST as <-. destruct F. constructor; auto.
      * destruct (Nat.ltb_spec i n) as [L|L]; [|discriminate ST]. eapply invF_wstep; eauto.
      * eapply invF_mstep; eauto.
Qed.

Lemma reach : forall t cs ls s, run rookie n (init t cs) ls = Some s -> Inv cs s /\ InvF cs s.
Proof. intros t cs ls s. apply invF_run; [apply inv_init|apply invF_init]. Qed.

(** ---- every benchmark takes a bounded number of steps ---- *)
Definition rank (tg : N) (p : pc) : N :=
  match p with
  | PIdle | PDead => 0
  | PSend | PErr => 2
  | PPost => 4
  | POkay x => if x =? 0 then 3 else 9
  | PCas _ c => if c =? tg then 4 else 5
  | PTarget _ => 6
  | PFly _ _ => 7
  | PReady _ => 8
  | PQueued => 10
  end.
Definition ranks (tg : N) (f : nat -> worker) : N := fold_right (fun i a => rank tg (wpc (f i)) + a) 0 (seq 0 n).
Definition cost (c : N) : N := c * (N.of_nat n + 6) + 10 * N.of_nat n + 1.
Definition costs (l : list N) : N := fold_right (fun c a => cost c + a) 0 l.
Definition measure (s : sys) : N :=
  costs (todo s) + target s * (N.of_nat n + 6) + ranks (target s) (ws s) + N.of_nat (length (chan s)) +
  match main s with MNext | MWait _ => 1 | _ => 0 end.

Lemma ranks_upd : forall tg f i, (i < n)%nat -> exists a,
  ranks tg f = a + rank tg (wpc (f i)) /\ (forall w, ranks tg (upd f i w) = a + rank tg (wpc w)) /\
  (forall tg' w, ranks tg' (upd f i w) + 1 <= a + N.of_nat n + rank tg' (wpc w)).
Proof.
  intros tg f i L. unfold ranks. assert (GEN : forall l, NoDup l -> In i l -> exists a,
    fold_right (fun i a => rank tg (wpc (f i)) + a) 0 l = a + rank tg (wpc (f i)) /\
    (forall w, fold_right (fun j a => rank tg (wpc (upd f i w j)) + a) 0 l = a + rank tg (wpc w)) /\
    (forall tg' w, fold_right (fun j a => rank tg' (wpc (upd f i w j)) + a) 0 l + 1 <= a + N.of_nat (length l) + rank tg' (wpc w))).
  { assert (R1 : forall tg' p, rank tg' p <= rank tg p + 1).
    { intros tg' p. destruct p; cbn; try lia. destruct (c =? tg'), (c =? tg); lia. }
    assert (NI : forall l, ~ In i l -> (forall w, fold_right (fun j a => rank tg (wpc (upd f i w j)) + a) 0 l = fold_right (fun i a => rank tg (wpc (f i)) + a) 0 l) /\
       (forall tg' w, fold_right (fun j a => rank tg' (wpc (upd f i w j)) + a) 0 l <= fold_right (fun i a => rank tg (wpc (f i)) + a) 0 l + N.of_nat (length l))).
    { induction l as [|x r IH]; intro NI; [split; intros; cbn; lia|].
      destruct IH as [I1 I2]; [intro X; apply NI; right; exact X|].
      assert (XI : x <> i) by (intro X; apply NI; left; exact X). split.
      - intro w. cbn. rewrite I1. rewrite upd_other by exact XI. reflexivity.
      - intros tg' w. cbn [fold_right length]. rewrite upd_other by exact XI. specialize (I2 tg' w). specialize (R1 tg' (wpc (f x))). lia. }
    induction l as [|x r IH]; intros ND I; [destruct I|]. inversion ND as [|? ? NX NR]; subst.
    destruct (Nat.eq_dec x i) as [E|E].
    - subst x. destruct (NI r NX) as [N1 N2]. eexists. split; [|split].
      + cbn. rewrite N.add_comm. reflexivity.
      + intro w. cbn. rewrite upd_same. rewrite N1. lia.
      + intros tg' w. cbn [fold_right length]. rewrite upd_same. specialize (N2 tg' w). lia.
    - destruct I as [I|I]; [contradiction|]. destruct (IH NR I) as [a [A1 [A2 A3]]].
      exists (rank tg (wpc (f x)) + a). split; [|split].
      + cbn. rewrite A1. lia.
      + intro w. cbn. rewrite upd_other by exact E. rewrite A2. lia.
      + intros tg' w. cbn [fold_right length]. rewrite upd_other by exact E. specialize (A3 tg' w). specialize (R1 tg' (wpc (f x))). lia. }
  destruct (GEN (seq 0 n) (seq_NoDup n 0)) as [a [A1 [A2 A3]]]; [apply in_seq; lia|].
  exists a. split; [exact A1|]. split; [exact A2|]. intros tg' w. specialize (A3 tg' w). rewrite seq_length in A3. exact A3.
Qed.

Lemma rank_got0 : forall tg b, rank tg (got b 0) <= 3.
Proof. intros tg [[|]|]; cbn; lia. Qed.
Lemma rank_loaded : forall tg b, rank tg (loaded b tg) <= 4.
Proof. intros tg b. unfold loaded. destruct (tg =? 0); [pose proof (rank_got0 tg b); lia|]. cbn. rewrite N.eqb_refl. lia. Qed.
Lemma rank_got : forall tg b c, rank tg (got b c) <= 9.
Proof.
  intros tg [o|] c; cbn.
  - unfold test. destruct (negb (c =? 0)), o; cbn; lia.
  - destruct (c =? 0); lia.
Qed.
Lemma rank_test : forall tg x o, rank tg (test x o) < rank tg (POkay x).
Proof. intros tg x o. unfold test. cbn [rank]. destruct (x =? 0); cbn [negb andb]; destruct o; cbn; lia. Qed.

Lemma measure_wstep : forall s i g s', InvZ s -> (i < n)%nat -> wstep rookie s i g = Some s' -> measure s' < measure s.
Proof.
  intros s i g s' HZ L ST. pose proof (HZ i L) as Z. unfold wstep in ST.
  destruct (ranks_upd (target s) (ws s) i L) as [a [A1 [A2 A3]]].
  destruct (wpc (ws s i)) eqn:P; try discriminate ST; cbn [okpc] in Z.
  - injection ST as <-. unfold measure. cbn [setw todo target ws chan main]. rewrite A1, A2. destruct rookie; cbn; lia.
  - injection ST as <-. unfold measure. cbn [setw todo target ws chan main]. rewrite A1, A2. cbn [at_ wpc rank].
    pose proof (rank_loaded (target s) b). lia.
  - destruct (N.eqb_spec (target s) c) as [T|T]; injection ST as <-; unfold measure; cbn [setw todo target ws chan main]; rewrite A1.
    + subst c. specialize (A3 (target s - 1) (at_ (ws s i) (got b (target s)))). cbn [at_ wpc] in A3.
      pose proof (rank_got (target s - 1) b (target s)). cbn [rank]. rewrite N.eqb_refl.
      replace (target s * (N.of_nat n + 6)) with ((target s - 1) * (N.of_nat n + 6) + (N.of_nat n + 6)) by nia. lia.
    + rewrite A2. cbn [at_ wpc rank]. pose proof (rank_loaded (target s) b). apply N.eqb_neq in T. rewrite N.eqb_sym in T. rewrite T. lia.
  - injection ST as <-. unfold measure. cbn [setw todo target ws chan main]. rewrite A1, A2. cbn [at_ wpc].
    pose proof (rank_test (target s) pos (okay s)). lia.
  - injection ST as <-. unfold measure. cbn [setw todo target ws chan main]. rewrite A1, A2. cbn; lia.
  - injection ST as <-. unfold measure. cbn [setw todo target ws chan main]. rewrite A1, A2. destruct g; cbn; lia.
  - injection ST as <-. unfold measure. cbn [setw todo target ws chan main]. rewrite A1, A2. cbn; lia.
  - injection ST as <-. unfold measure. cbn [setw todo target ws chan main]. rewrite A1, A2, app_length. cbn [length at_ wpc rank]. lia.
  - destruct (wstart (ws s i)); injection ST as <-; unfold measure; cbn [setw todo target ws chan main]; rewrite A1, A2.
    + rewrite app_length. cbn [length at_ wpc rank]. lia.
    + cbn; lia.
Qed.

Lemma ranks_queued : forall tg f, ranks tg (fun i => if Nat.ltb i n then at_ (f i) PQueued else f i) = 10 * N.of_nat n.
Proof.
  intros tg f. unfold ranks.
  assert (G : forall l, (forall i, In i l -> (i < n)%nat) ->
    fold_right (fun i a => rank tg (wpc (if Nat.ltb i n then at_ (f i) PQueued else f i)) + a) 0 l = 10 * N.of_nat (length l)).
  { induction l as [|x r IH]; intro H; [reflexivity|]. cbn [fold_right length]. rewrite IH by (intros j J; apply H; right; exact J).
    assert (X : (x < n)%nat) by (apply H; left; reflexivity). apply Nat.ltb_lt in X. rewrite X. cbn [at_ wpc rank]. lia. }
  rewrite G; [rewrite seq_length; reflexivity|]. intros i I. apply in_seq in I. lia.
Qed.

Lemma measure_mstep : forall s s', mstep rookie n s = Some s' -> measure s' < measure s.
Proof.
  intros s s' ST. unfold mstep in ST. destruct (main s) as [|from| |] eqn:M; try discriminate ST.
  - destruct (todo s) as [|c r] eqn:TD.
    + injection ST as <-. unfold measure. cbn [setm todo target ws chan main]. rewrite ?M, ?TD. lia.
    + destruct (all_ws n (ws s) (fun p => is_idle p || is_dead p)); [|discriminate ST].
      destruct (all_ws n (ws s) is_idle); injection ST as <-; unfold measure; cbn [setm todo target ws chan main]; rewrite M, ?TD.
      * rewrite ranks_queued. change (costs (c :: r)) with (cost c + costs r). unfold cost. lia.
      * lia.
  - destruct (chan s) as [|[i t e h l|i] q] eqn:C.
    + destruct (all_ws n (ws s) is_dead); [|discriminate ST]. injection ST as <-. unfold measure. cbn [setm todo target ws chan main]. rewrite M, C. lia.
    + destruct (Nat.eqb (S (length from)) n); injection ST as <-; unfold measure; cbn [todo target ws chan main]; rewrite M, C; cbn [length].
      * destruct rookie; [|lia].
        assert (R : ranks 0 (ws s) <= ranks (target s) (ws s) + N.of_nat n).
        { unfold ranks. rewrite <- (seq_length n 0) at 3. induction (seq 0 n) as [|x r IH]; cbn [fold_right length]; [lia|].
          assert (rank 0 (wpc (ws s x)) <= rank (target s) (wpc (ws s x)) + 1).
          { destruct (wpc (ws s x)); cbn; try lia. destruct (c =? 0), (c =? target s); lia. } lia. }
        destruct (N.eq_dec (target s) 0) as [Z|Z]; [rewrite Z in *; lia|]. nia.
      * lia.
    + injection ST as <-. unfold measure. cbn [todo target ws chan main]. rewrite M, C. cbn [length]. lia.
Qed.

Definition moves (ls : list lab) : N := N.of_nat (length (filter (fun l => match l with Tick _ => false | _ => true end) ls)).

Lemma moves_bounded : forall ls s s', InvZ s -> run rookie n s ls = Some s' -> moves ls + measure s' <= measure s.
Proof.
  induction ls as [|l r IH]; intros s s' HZ R; cbn [run] in R.
  - injection R as <-. unfold moves. cbn. lia.
  - destruct (step rookie n s l) as [s1|] eqn:ST; [|discriminate R].
    specialize (IH s1 s' (invZ_step _ _ _ HZ ST) R). unfold moves in *. destruct l as [d|i g|]; cbn [filter length]; unfold step in ST.
    + injection ST as <-. exact IH.
    + destruct (Nat.ltb_spec i n) as [L|L]; [|discriminate ST]. pose proof (measure_wstep _ _ _ _ HZ L ST). lia.
    + pose proof (measure_mstep _ _ ST). lia.
Qed.

(** ---- runs in which every answer is good ---- *)
Definition good (l : lab) : Prop := match l with WS _ g => g = true | _ => True end.

Record InvG (s : sys) : Prop := {
  g_ok : okay s = true;
  g_pc : forall i, (i < n)%nat -> wpc (ws s i) <> PPost /\ wpc (ws s i) <> PErr;
  g_chan : forall i, ~ In (Err i) (chan s);
  g_main : main s <> MFail;
  g_dead : forall i, (i < n)%nat -> wpc (ws s i) = PDead -> mine (phase s) i (log s) = []
}.

Lemma invG_init : forall t cs, InvG (init t cs).
Proof. intros. constructor; cbn; intros; auto; try discriminate. split; discriminate. Qed.

Lemma nb_test : forall x o, test x o <> PPost /\ test x o <> PErr /\ test x o <> PDead.
Proof. intros x o. unfold test. destruct (negb (x =? 0) && o); [repeat split; discriminate|]. destruct o; repeat split; discriminate. Qed.
Lemma nb_got : forall b x, got b x <> PPost /\ got b x <> PErr /\ got b x <> PDead.
Proof. intros [o|] x; cbn; [apply nb_test|repeat split; discriminate]. Qed.
Lemma nb_loaded : forall b x, loaded b x <> PPost /\ loaded b x <> PErr /\ loaded b x <> PDead.
Proof. intros b x. unfold loaded. destruct (x =? 0); [apply nb_got|repeat split; discriminate]. Qed.

Lemma invG_quiet : forall s i w' tg ch, InvG s -> (i < n)%nat -> wpc w' <> PPost /\ wpc w' <> PErr ->
  (wpc w' = PDead -> mine (phase s) i (log s) = []) -> (forall j, In (Err j) ch -> In (Err j) (chan s)) ->
  InvG (Sy (now s) tg (okay s) (upd (ws s) i w') ch (main s) (todo s) (cur s) (phase s)
     (gstart s) (gstop s) (ghead s) (gtail s) (stats s) (log s)).
Proof.
  intros s i w' tg ch H L NB D CH. destruct H. constructor; cbn [main phase log okay ws chan]; auto.
  - intros j J. destruct (Nat.eq_dec j i) as [E|E]; [subst j; rewrite upd_same; exact NB|rewrite upd_other by exact E; auto].
  - intros j X. apply CH in X. elim (g_chan0 _ X).
  - intros j J A. destruct (Nat.eq_dec j i) as [E|E]; [subst j; rewrite upd_same in A; auto|rewrite upd_other in A by exact E; auto].
Qed.

Lemma invG_wstep : forall cs s i s', InvA s -> InvF cs s -> InvG s -> (i < n)%nat -> wstep rookie s i true = Some s' -> InvG s'.
Proof.
  intros cs s i s' HA HF H L ST. unfold wstep in ST.
  destruct (wpc (ws s i)) eqn:P; try discriminate ST.
  - injection ST as <-. apply invG_quiet; auto; cbn; destruct rookie; try (intro D; discriminate D); split; discriminate.
  - injection ST as <-. destruct (nb_loaded b (target s)) as [A [B C]]. apply invG_quiet; auto. cbn. intro D. contradiction.
  - destruct (nb_loaded b (target s)) as [A [B C]]. destruct (nb_got b c) as [A' [B' C']].
    destruct (target s =? c); injection ST as <-; apply invG_quiet; auto; cbn; intro D; contradiction.
  - injection ST as <-. destruct (nb_test pos (okay s)) as [A [B C]]. apply invG_quiet; auto. cbn. intro D. contradiction.
  - injection ST as <-. apply invG_quiet; auto; cbn; try (intro D; discriminate D); split; discriminate.
  - injection ST as <-. destruct H. constructor; cbn [main phase log okay ws chan]; auto.
    + intros j J. destruct (Nat.eq_dec j i) as [E|E]; [subst j; rewrite upd_same; split; discriminate|rewrite upd_other by exact E; auto].
    + intros j J A. destruct (Nat.eq_dec j i) as [E|E]; [subst j; rewrite upd_same in A; discriminate A|].
      rewrite upd_other in A by exact E. rewrite mine_other by (right; cbn; congruence). auto.
  - destruct (g_pc _ H i L). congruence.
  - destruct (g_pc _ H i L). congruence.
  - destruct (wstart (ws s i)) as [t|] eqn:WT; injection ST as <-; apply invG_quiet; auto; cbn; try (intro D; discriminate D); try (split; discriminate).
    + intros j X. apply in_snoc in X. destruct X as [X|X]; [exact X|discriminate X].
    + intros _. assert (NF := g_main _ H). destruct (main s) as [|from| |] eqn:M.
      * destruct (a_next _ HA M) as [_ [X _]]. rewrite (X i L) in P. discriminate P.
      * assert (AC : active (wpc (ws s i)) = true) by (rewrite P; reflexivity).
        destruct (f_act _ _ HF from i M L AC) as [X _]. rewrite WT in X.
        destruct (mine (phase s) i (log s)); [reflexivity|discriminate X].
      * destruct (a_ok _ HA M) as [_ [X _]]. rewrite (X i L) in P. discriminate P.
      * contradiction.
Qed.

Lemma somebody_worked : forall cs s from, Inv cs s -> InvG s -> main s = MWait from -> cur s <> 0 ->
  (forall i, (i < n)%nat -> wpc (ws s i) = PDead) -> False.
Proof.
  intros cs s from [HA [HZ [HK HH]]] HG M CZ D.
  destruct (HK (or_introl (ex_intro _ from M))) as [lost [Q O]]. rewrite (O (g_ok _ HG)) in Q.
  rewrite (a_zero _ HA 0%nat n_pos) in Q by (rewrite (D 0%nat n_pos); reflexivity).
  rewrite holding_nil in Q by (intros i L; rewrite (D i L); reflexivity). cbn [keys N.to_nat seq map app] in Q. rewrite app_nil_r in Q.
  rewrite (keys_pred _ CZ) in Q.
  assert (I : In (cur s) (map e_pos (of_phase (phase s) (log s)))) by (rewrite Q; left; reflexivity).
  apply in_map_iff in I. destruct I as [e [_ I]]. apply in_phase in I. destruct I as [I E].
  assert (W := h_w _ _ HH e I). assert (X := g_dead _ HG (e_w e) W (D _ W)).
  assert (Y : In e (mine (phase s) (e_w e) (log s))) by (apply in_mine; auto). rewrite X in Y. destruct Y.
Qed.

Lemma cur_pos : forall cs s from, InvH cs s -> main s = MWait from -> (forall c, In c cs -> c <> 0) -> cur s <> 0.
Proof.
  intros cs s from HH M P. destruct (h_counts _ _ HH) as [dn [A _]]. rewrite M in A. apply P. rewrite A. apply in_or_app. right. left. reflexivity.
Qed.

Lemma invG_mstep : forall cs s s', (forall c, In c cs -> c <> 0) -> Inv cs s -> InvF cs s -> InvG s -> mstep rookie n s = Some s' -> InvG s'.
Proof.
  intros cs s s' PC HI HF HG ST. assert (HI2 := HI). destruct HI2 as [HA [HZ [HK HH]]].
  unfold mstep in ST. destruct (main s) as [|from| |] eqn:M; try discriminate ST.
  - destruct (a_next _ HA M) as [C [ID O]].
    destruct (todo s) as [|c r] eqn:TD.
    + injection ST as <-. destruct HG. constructor; cbn [setm main phase log okay ws chan]; auto. discriminate.
    + assert (ALL : all_ws n (ws s) is_idle = true) by (apply all_ws_spec; intros i L; rewrite (ID i L); reflexivity).
      rewrite ALL in ST.
      destruct (all_ws n (ws s) (fun p => is_idle p || is_dead p)) eqn:AL2; [|discriminate ST]. injection ST as <-.
      assert (Q : forall i, (i < n)%nat -> (if Nat.ltb i n then at_ (ws s i) PQueued else ws s i) = at_ (ws s i) PQueued).
      { intros i L. apply Nat.ltb_lt in L. rewrite L. reflexivity. }
      destruct HG. constructor; cbn [main phase log okay ws chan]; auto.
      * intros i L. rewrite Q by exact L. split; discriminate.
      * discriminate.
      * intros i L D. rewrite Q in D by exact L. discriminate D.
  - destruct (chan s) as [|[i t e h l|i] q] eqn:C.
    + destruct (all_ws n (ws s) is_dead) eqn:AD; [|discriminate ST]. exfalso.
      eapply somebody_worked; eauto; [eapply cur_pos; eauto|]. intros i L. rewrite all_ws_spec in AD. specialize (AD i L).
      destruct (wpc (ws s i)); try discriminate AD. reflexivity.
    + destruct (Nat.eqb_spec (S (length from)) n) as [LN|LN].
      * destruct (last_result _ _ _ _ _ _ _ _ HA M C LN) as [QQ [AL [ID [OK T]]]]. injection ST as <-.
        destruct HG. constructor; cbn [main phase log okay ws chan]; auto.
        { destruct rookie; auto. }
        { intros j J. rewrite QQ in J. destruct J. }
        { discriminate. }
        { intros j J D. rewrite (ID j J) in D. discriminate D. }
      * injection ST as <-. destruct HG. constructor; cbn [main phase log okay ws chan]; auto.
        { intros j J. apply (g_chan0 j). rewrite C. right. exact J. }
        { discriminate. }
    + elim (g_chan _ HG i). rewrite C. left. reflexivity.
Qed.

Lemma reach_good : forall cs ls s s', (forall c, In c cs -> c <> 0) -> Inv cs s -> InvF cs s -> InvG s -> Forall good ls ->
  run rookie n s ls = Some s' -> Inv cs s' /\ InvF cs s' /\ InvG s'.
Proof.
  intros cs ls. induction ls as [|l r IH]; intros s s' PC H F G GD R; cbn [run] in R.
  - injection R as <-. auto.
  - inversion GD as [|? ? G1 G2]; subst. destruct (step rookie n s l) as [s1|] eqn:ST; [|discriminate R].
    destruct (invF_run cs [l] s s1 H F) as [H1 F1]; [cbn [run]; rewrite ST; reflexivity|].
    eapply IH; [exact PC|exact H1|exact F1| |exact G2|exact R].
    destruct H as [HA [HZ [HK HH]]]. destruct l as [d|i g|]; unfold step in ST.
    + injection ST as <-. destruct G. constructor; auto.
    + destruct (Nat.ltb_spec i n) as [L|L]; [|discriminate ST]. cbn in G1. subst g. eapply invG_wstep; eauto.
    + apply (invG_mstep cs s s1 PC); auto. split; auto.
Qed.

(** a panicked worker stays so *)
Lemma dead_step : forall s l s' i, InvA s -> (i < n)%nat -> wpc (ws s i) = PDead -> step rookie n s l = Some s' -> wpc (ws s' i) = PDead.
Proof.
  intros s l s' i HA L D ST. destruct l as [d|j g|]; unfold step in ST.
  - injection ST as <-. exact D.
  - destruct (Nat.ltb_spec j n) as [J|J]; [|discriminate ST].
    assert (NE : i <> j) by (intro E; subst j; unfold wstep in ST; rewrite D in ST; discriminate ST).
    unfold wstep in ST. destruct (wpc (ws s j)); try discriminate ST;
      repeat match type of ST with (if ?b then _ else _) = _ => destruct b | match ?o with Some _ => _ | None => _ end = _ => destruct o end;
      injection ST as <-; cbn [setw ws]; rewrite upd_other by exact NE; exact D.
  - unfold mstep in ST. destruct (main s) as [|from| |] eqn:M; try discriminate ST.
    + destruct (a_next _ HA M) as [_ [X _]]. rewrite (X i L) in D. discriminate D.
    + destruct (chan s) as [|[k t e h l|k] q].
      * destruct (all_ws n (ws s) is_dead); [|discriminate ST]. injection ST as <-. exact D.
      * destruct (Nat.eqb (S (length from)) n); injection ST as <-; exact D.
      * injection ST as <-. exact D.
Qed.

Lemma dead_run : forall cs ls s s' i, Inv cs s -> (i < n)%nat -> wpc (ws s i) = PDead -> run rookie n s ls = Some s' -> wpc (ws s' i) = PDead.
Proof.
  intros cs ls. induction ls as [|l r IH]; intros s s' i H L D R; cbn [run] in R.
  - injection R as <-. exact D.
  - destruct (step rookie n s l) as [s1|] eqn:ST; [|discriminate R]. eapply IH; [eapply inv_step; eauto|exact L| |exact R].
    eapply dead_step; eauto. apply H.
Qed.

(** nothing can move: everything is done or a worker is gone *)
Lemma progress : forall cs s, (forall c, In c cs -> c <> 0) -> Inv cs s -> InvG s ->
  (forall i, (i < n)%nat -> wpc (ws s i) <> PDead) ->
  (forall l, good l -> (forall d, l <> Tick d) -> step rookie n s l = None) -> main s = MOk.
Proof.
  intros cs s PC [HA [HZ [HK HH]]] HG ND ST.
  assert (ID : forall i, (i < n)%nat -> wpc (ws s i) = PIdle).
  { intros i L. specialize (ST (WS i true) eq_refl (fun d D => ltac:(discriminate D))). unfold step in ST.
    destruct (Nat.ltb_spec i n); [|lia]. unfold wstep in ST. specialize (ND i L).
    destruct (wpc (ws s i)); try discriminate ST; try contradiction; auto.
    - destruct (target s =? c); discriminate ST.
    - destruct (wstart (ws s i)); discriminate ST. }
  assert (ALL : all_ws n (ws s) is_idle = true) by (apply all_ws_spec; intros i L; rewrite (ID i L); reflexivity).
  assert (ALL2 : all_ws n (ws s) (fun p => is_idle p || is_dead p) = true) by (apply all_ws_spec; intros i L; rewrite (ID i L); reflexivity).
  specialize (ST MS I (fun d D => ltac:(discriminate D))). unfold step, mstep in ST.
  destruct (main s) as [|from| |] eqn:M; auto.
  - destruct (todo s); [discriminate ST|]. rewrite ALL, ALL2 in ST. discriminate ST.
  - exfalso. destruct (chan s) as [|[i t e h l|i] q] eqn:C.
    + pose proof (a_idle _ HA from) as X. rewrite C in X. cbn in X. rewrite app_nil_r in X.
      pose proof (a_few _ HA _ M) as FW. pose proof (a_nodup _ HA _ M) as NDUP. rewrite C in NDUP. cbn in NDUP. rewrite app_nil_r in NDUP.
      assert (LE : (length (seq 0 n) <= length from)%nat).
      { apply NoDup_incl_length; [apply seq_NoDup|]. intros i J. apply in_seq in J.
        apply X; auto; [apply (g_ok _ HG)|lia|apply ID; lia]. }
      rewrite seq_length in LE. lia.
    + destruct (Nat.eqb (S (length from)) n); discriminate ST.
    + discriminate ST.
  - elim (g_main _ HG). exact M.
Qed.

End Inv.

(** ---- a schedule that leaves a worker without a query ---- *)
Lemma run_app : forall rookie n ls1 ls2 s, run rookie n s (ls1 ++ ls2) =
  match run rookie n s ls1 with Some s' => run rookie n s' ls2 | None => None end.
Proof. induction ls1 as [|l r IH]; intros; cbn [run app]; [reflexivity|]. destruct (step rookie n s l); [apply IH|reflexivity]. Qed.

(** worker [0] does all that is left *)
Lemma takes_all : forall rookie n c s b, (1 < n)%nat -> b = None \/ b = Some true -> target s = N.of_nat c -> okay s = true ->
  wpc (ws s 0%nat) = PTarget b -> exists ls s', Forall good ls /\ run rookie n s ls = Some s' /\
    target s' = 0 /\ okay s' = true /\ ws s' 1%nat = ws s 1%nat.
Proof.
  intros rookie n c. induction c as [|c IH]; intros s b N2 B T OK P.
  - exists [], s. repeat split; auto.
  - assert (L0 : (0 <? n)%nat = true) by (apply Nat.ltb_lt; lia).
    assert (TZ : (target s =? 0) = false) by (apply N.eqb_neq; lia).
    (* load *)
    set (s1 := setw s 0 (at_ (ws s 0%nat) (PCas b (target s)))).
    assert (E1 : step rookie n s (WS 0 true) = Some s1).
    { unfold step. rewrite L0. unfold wstep. rewrite P. unfold loaded. rewrite TZ. reflexivity. }
    (* compare and swap, and the flag if it is read afterwards *)
    assert (E2 : exists ls s2, Forall good ls /\ run rookie n s1 ls = Some s2 /\ wpc (ws s2 0%nat) = PReady (target s) /\
              target s2 = target s - 1 /\ okay s2 = true /\ ws s2 1%nat = ws s 1%nat).
    { destruct B as [B|B]; subst b.
      - exists [WS 0 true; WS 0 true]. eexists. split; [repeat constructor|]. split.
        + cbn [run]. unfold step. rewrite L0. unfold wstep at 1. unfold s1, setw, at_. cbn [ws upd Nat.eqb wpc target okay].
          rewrite N.eqb_refl. unfold wstep. cbn [ws upd Nat.eqb wpc target okay got]. unfold test. rewrite TZ, OK. cbn [negb andb]. reflexivity.
        + cbn [setw at_ ws upd Nat.eqb wpc target okay]. repeat split; auto.
      - exists [WS 0 true]. eexists. split; [repeat constructor|]. split.
        + cbn [run]. unfold step. rewrite L0. unfold wstep at 1. unfold s1, setw, at_. cbn [ws upd Nat.eqb wpc target okay].
          rewrite N.eqb_refl. unfold got, test. rewrite TZ. cbn [negb andb]. reflexivity.
        + cbn [setw at_ ws upd Nat.eqb wpc target okay]. repeat split; auto. }
    destruct E2 as [ls2 [s2 [G2 [R2 [P2 [T2 [O2 W2]]]]]]].
    (* send and receive *)
    assert (E3 : exists s3, run rookie n s2 [WS 0 true; WS 0 true] = Some s3 /\ wpc (ws s3 0%nat) = PTarget None /\
              target s3 = target s - 1 /\ okay s3 = true /\ ws s3 1%nat = ws s 1%nat).
    { eexists. split.
      - cbn [run]. unfold step. rewrite L0. unfold wstep at 1. rewrite P2. unfold wstep. cbn [setw at_ ws upd Nat.eqb wpc]. reflexivity.
      - cbn [setw at_ ws upd Nat.eqb wpc target okay]. auto. }
    destruct E3 as [s3 [R3 [P3 [T3 [O3 W3]]]]].
    destruct (IH s3 None N2 (or_introl eq_refl)) as [ls4 [s4 [G4 [R4 [T4 [O4 W4]]]]]]; auto; [lia|].
    exists (WS 0 true :: ls2 ++ [WS 0 true; WS 0 true] ++ ls4), s4. split.
    + constructor; [reflexivity|]. apply Forall_app. split; [exact G2|]. apply Forall_app. split; [repeat constructor|exact G4].
    + split; [|rewrite W4; auto]. cbn [run]. rewrite E1, run_app, R2, run_app, R3. exact R4.
Qed.

(** then worker [1] finds nothing and panics *)
Lemma somebody_panics : forall rookie n t c cs, (1 < n)%nat -> exists ls s, Forall good ls /\
  run rookie n (init t (c :: cs)) ls = Some s /\ wpc (ws s 1%nat) = PDead.
Proof.
  intros rookie n t c cs N2.
  assert (L0 : (0 <? n)%nat = true) by (apply Nat.ltb_lt; lia). assert (L1 : (1 <? n)%nat = true) by (apply Nat.ltb_lt; lia).
  assert (M : exists s1, run rookie n (init t (c :: cs)) [MS; WS 0 true] = Some s1 /\ target s1 = N.of_nat (N.to_nat c) /\ okay s1 = true /\
     wpc (ws s1 0%nat) = PTarget (if rookie then Some true else None) /\ wpc (ws s1 1%nat) = PQueued).
  { eexists. split.
    - cbn [run]. unfold step at 1. unfold mstep. cbn [init main todo ws].
      assert (A : forall p, p PIdle = true -> all_ws n (fun _ => fresh PIdle) p = true) by (intros p HP; apply all_ws_spec; intros; exact HP).
      rewrite !A by reflexivity. unfold step. rewrite L0. unfold wstep. cbn [ws]. rewrite L0. cbn [at_ wpc fresh]. reflexivity.
    - cbn [setw target okay ws upd Nat.eqb fresh wpc init at_]. rewrite L1. rewrite N2Nat.id. auto. }
  destruct M as [s1 [R1 [T1 [O1 [P1 Q1]]]]].
  assert (B : (if rookie then Some true else None) = None \/ (if rookie then Some true else None) = Some true) by (destruct rookie; auto).
  destruct (takes_all rookie n (N.to_nat c) s1 _ N2 B T1 O1 P1) as [ls2 [s2 [G2 [R2 [T2 [O2 W2]]]]]].
  assert (F : exists ls3 s3, Forall good ls3 /\ run rookie n s2 ls3 = Some s3 /\ wpc (ws s3 1%nat) = PDead).
  { rewrite <- W2 in Q1. destruct rookie.
    - exists [WS 1 true; WS 1 true; WS 1 true]. eexists. split; [repeat constructor|]. split.
      + cbn [run]. unfold step. rewrite L1. unfold wstep at 1. rewrite Q1. unfold wstep at 1. cbn [setw ws upd Nat.eqb fresh wpc target okay].
        rewrite T2, O2. cbn [at_ wpc loaded N.eqb got test negb andb]. unfold wstep.
        cbn [setw ws upd Nat.eqb fresh wpc target okay at_ wstart]. reflexivity.
      + reflexivity.
    - exists [WS 1 true; WS 1 true; WS 1 true; WS 1 true]. eexists. split; [repeat constructor|]. split.
      + cbn [run]. unfold step. rewrite L1. unfold wstep at 1. rewrite Q1. unfold wstep at 1. cbn [setw ws upd Nat.eqb fresh wpc target okay].
        rewrite T2. cbn [at_ wpc loaded N.eqb got test negb andb]. unfold wstep at 1.
        cbn [setw ws upd Nat.eqb fresh wpc target okay at_ wstart]. rewrite O2. unfold test. cbn [N.eqb negb andb]. unfold wstep.
        cbn [setw ws upd Nat.eqb fresh wpc target okay at_ wstart]. reflexivity.
      + reflexivity. }
  destruct F as [ls3 [s3 [G3 [R3 D3]]]].
  exists ([MS; WS 0 true] ++ ls2 ++ ls3), s3. split.
  - apply Forall_app. split; [repeat constructor|]. apply Forall_app. auto.
  - split; [|exact D3]. rewrite run_app, R1, run_app, R2. exact R3.
Qed.
