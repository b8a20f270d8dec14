(** C92: a shared value is destroyed once, after its last use. *)
From Coq Require Import List NArith Bool Lia.
From Verif Require Import RcModel RcProofs.
Import ListNotations.
Local Open Scope N_scope.

(** an execution: a sequence of steps of any threads, at no time with 2^63 - 1 threads or more inside [rc_clone] *)
Definition execution (l : list act) (s : st) : Prop :=
  run init l = Some s /\ forall l1 l2 s1, l = l1 ++ l2 -> run init l1 = Some s1 -> N.of_nat (length (pend s1)) < 9223372036854775807.
Lemma run_app l1 : forall s l2, run s (l1 ++ l2) = match run s l1 with Some s1 => run s1 l2 | None => None end.
Proof. induction l1 as [|a l1 IH]; intros s l2; [reflexivity|]. cbn. destruct (exec s a); [apply IH|reflexivity]. Qed.
Lemma execution_inv l s : execution l s -> Inv s.
Proof.
  revert s. induction l as [|a l IH] using rev_ind; intros s (R & C); [injection R as <-; exact init_inv|]. rewrite run_app in R. destruct (run init l) as [s1|] eqn:E; [|discriminate R]. cbn in R. destruct (exec s1 a) as [s2|] eqn:X; [|discriminate R]. injection R as <-.
  apply (step_inv s1 a); [|apply (C l [a] s1 eq_refl E)|exact X]. apply IH. split; [exact E|]. intros l1 l2 s3 Q. apply (C l1 (l2 ++ [a])). rewrite Q, app_assoc. reflexivity.
Qed.

(** In every execution: nothing is used after it was freed; the data are destroyed at most once and the box freed at most
    once; while a handle exists, or one is being made, neither has happened. *)
Theorem C92_safe : forall l s, execution l s ->
  bad s = false /\ (length (dropped s) <= 1)%nat /\ (length (boxfree s) <= 1)%nat /\ (hs s <> [] \/ pend s <> [] -> dropped s = [] /\ boxfree s = []).
Proof.
  intros l s X. destruct (execution_inv l s X) as [A|[D|SS]].
  - rewrite (a_bad _ A), (a_dropped _ A), (a_box _ A). split; [reflexivity|]. split; [cbn; lia|]. split; [cbn; lia|]. intros _. split; reflexivity.
  - destruct D as [DH DP DB DA (t0 & p & DR & DD)]. split; [exact DB|]. destruct p as [rv| | |].
    + destruct DD as (-> & -> & _). cbn. split; [lia|]. split; [lia|]. intros _. split; reflexivity.
    + destruct DD as (-> & -> & _). cbn. split; [lia|]. split; [lia|]. intros _. split; reflexivity.
    + destruct DD as ((v & -> & _) & -> & _). cbn. split; [lia|]. split; [lia|]. intros [Q|Q]; [destruct (Q DH)|destruct (Q DP)].
    + destruct DD as ((v & -> & _) & (v' & -> & _)). cbn. split; [lia|]. split; [lia|]. intros [Q|Q]; [destruct (Q DH)|destruct (Q DP)].
  - destruct SS as [_ B -> ->]. split; [exact B|]. split; [cbn; lia|]. split; [cbn; lia|]. intros _. split; reflexivity.
Qed.
(** Every use of the data and every operation on the counter, by any thread, is known to have happened before the
    destruction of the data and before the box is freed. *)
Theorem C92_order : forall l s v e, execution l s -> In v (dropped s) \/ In v (boxfree s) -> In e (events s) -> In e v.
Proof.
  intros l s v e X IV IE. destruct (execution_inv l s X) as [A|[D|SS]].
  - rewrite (a_dropped _ A), (a_box _ A) in IV. destruct IV as [[]|[]].
  - destruct D as [DH DP DB DA (t0 & p & DR & DD)]. destruct p as [rv| | |].
    + destruct DD as (D1 & D2 & _). rewrite D1, D2 in IV. destruct IV as [[]|[]].
    + destruct DD as (D1 & D2 & _). rewrite D1, D2 in IV. destruct IV as [[]|[]].
    + destruct DD as ((w & D1 & K) & D2 & _). rewrite D1, D2 in IV. destruct IV as [[<-|[]]|[]]. apply K. exact IE.
    + destruct DD as ((w & D1 & K) & (w' & D2 & K')). rewrite D1, D2 in IV. destruct IV as [[<-|[]]|[<-|[]]]; [apply K; exact IE|apply K'; exact IE].
  - destruct SS as [_ _ D1 D2]. rewrite D1, D2 in IV. destruct IV as [[]|[]].
Qed.
(** Nothing leaks: when no handle is left and none is being made, exactly one thread is responsible, and when it has
    gone on the data are destroyed and the box is freed, once each. *)
Theorem C92_no_leak : forall l s, execution l s -> aborted s = false -> hs s = [] -> pend s = [] ->
  exists t p, dr s = [(t, p)] /\ exists l' s', (length l' <= 3)%nat /\ Forall (fun a => a = AFence t \/ a = ADestroy t \/ a = AFree t) l' /\ run s l' = Some s' /\
    length (dropped s') = 1%nat /\ length (boxfree s') = 1%nat /\ bad s' = false.
Proof.
  intros l s X NA HN PN. destruct (execution_inv l s X) as [A|[D|SS]].
  - pose proof (a_pos _ A) as P. rewrite HN, PN in P. cbn in P. lia.
  - destruct D as [DH DP DB DA (t & p & DR & DD)]. exists t, p. split; [exact DR|]. destruct p as [rv| | |].
    + destruct DD as (D1 & D2 & _). exists [AFence t; ADestroy t; AFree t]. eexists. split; [cbn; lia|]. split; [repeat (apply Forall_cons; [auto|]); apply Forall_nil|].
      cbn [run]. unfold exec. rewrite DA, DR. cbv zeta. cbn [take_dr]. rewrite N.eqb_refl. do 2 (cbn [aborted dr take_dr]; cbv zeta; rewrite ?N.eqb_refl). split; [reflexivity|]. cbn. rewrite D1, D2, DB. cbn. split; [reflexivity|]. split; reflexivity.
    + destruct DD as (D1 & D2 & _). exists [ADestroy t; AFree t]. eexists. split; [cbn; lia|]. split; [repeat (apply Forall_cons; [auto|]); apply Forall_nil|].
      cbn [run]. unfold exec. rewrite DA, DR. cbv zeta. cbn [take_dr]. rewrite N.eqb_refl. do 2 (cbn [aborted dr take_dr]; cbv zeta; rewrite ?N.eqb_refl). split; [reflexivity|]. cbn. rewrite D1, D2, DB. cbn. split; [reflexivity|]. split; reflexivity.
    + destruct DD as ((v & D1 & _) & D2 & _). exists [AFree t]. eexists. split; [cbn; lia|]. split; [repeat (apply Forall_cons; [auto|]); apply Forall_nil|].
      cbn [run]. unfold exec. rewrite DA, DR. cbv zeta. cbn [take_dr]. rewrite N.eqb_refl. do 2 (cbn [aborted dr take_dr]; cbv zeta; rewrite ?N.eqb_refl). split; [reflexivity|]. cbn. rewrite D1, D2, DB. cbn. split; [reflexivity|]. split; reflexivity.
    + destruct DD as ((v & D1 & _) & (v' & D2 & _)). exists [], s. split; [cbn; lia|]. split; [constructor|]. split; [reflexivity|]. rewrite D1, D2. split; [reflexivity|]. split; [reflexivity|exact DB].
  - rewrite (s_ab _ SS) in NA. discriminate NA.
Qed.
(** While handles exist the counter is their number, counting those being made. *)
Theorem C92_counter : forall l s, execution l s -> aborted s = false -> hs s <> [] \/ pend s <> [] -> cnt s = N.of_nat (length (hs s) + length (pend s)).
Proof.
  intros l s X NA HN. destruct (execution_inv l s X) as [A|[D|SS]]; [apply (a_cnt _ A)|destruct D as [DH DP _ _ _]; destruct HN as [Q|Q]; [destruct (Q DH)|destruct (Q DP)]|rewrite (s_ab _ SS) in NA; discriminate NA].
Qed.

(** * Cases *)
(** three threads: the first lends the handle to two, both copy it at the same time, both copies are used and dropped
    while the first drops its own *)
Definition ex_run : list act :=
  [ALend 1 0; ALend 2 0; AUse 1 0; AAdd 1 0; AAdd 2 0; ACheck 2; ACheck 1; AReturn 1 0; ALend 2 1; AUse 2 1; AReturn 2 0; ADrop 7 0; AReturn 2 1; ADrop 2 1; ALend 1 2; AUse 1 2; AReturn 1 2; ADrop 1 2; AFence 1; ADestroy 1; AFree 1].
Example C92_case : exists s, execution ex_run s /\ length (dropped s) = 1%nat /\ length (events s) = 8%nat /\ bad s = false /\ hs s = [].
Proof.
  eexists. split; [split; [vm_compute; reflexivity|]|].
  - assert (G : forall l s, run init l = Some s -> (length (pend s) <= length l)%nat).
    { intros l. induction l as [|a l IH] using rev_ind; intros s R; [injection R as <-; cbn; lia|]. rewrite run_app in R. destruct (run init l) as [s1|]; [|discriminate R]. specialize (IH s1 eq_refl). rewrite app_length. cbn in R |- *. destruct (exec s1 a) as [s2|] eqn:X; [|discriminate R]. injection R as <-.
      assert (L : (length (pend s2) <= Datatypes.S (length (pend s1)))%nat); [|lia]. unfold exec in X. destruct (aborted s1); [discriminate X|]. cbv zeta in X.
      destruct a as [t h|t h|t h|t h|t|t h|t|t|t]; try (destruct (get (hs s1) h) as [x|]; [|discriminate X]); try (destruct (has t (lent x)); [|discriminate X]); try (destruct (nonempty (lent x)); [discriminate X|]); try (match type of X with context [take_dr] => destruct (take_dr t (dr s1)) as [([rv| | |] & r)|]; try discriminate X end); try (injection X as <-; cbn; lia).
      destruct (take_pend t (pend s1)) as [(o & r)|] eqn:T; [|discriminate X]. destruct (take_pend_ok _ _ _ _ T) as (_ & LL). destruct (isize_max <? o); injection X as <-; cbn; lia. }
    intros l1 l2 s1 Q R. specialize (G l1 s1 R). assert (LE : (length l1 <= 21)%nat) by (change 21%nat with (length ex_run); rewrite Q, app_length; lia). lia.
  - vm_compute. repeat split; reflexivity.
Qed.

Print Assumptions C92_safe.
Print Assumptions C92_order.
Print Assumptions C92_no_leak.
Print Assumptions C92_counter.
