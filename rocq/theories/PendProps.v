(** C115: how much may wait for the disk. The tasks are those of ShutModel.v. *)
From Coq Require Import List NArith Bool Arith Lia.
From Verif Require Import ShutModel ShutSpec ShutProofs PendModel.
Import ListNotations.

(** ** Specification *)

(** the changes of [m] that batches asked for will take: in the queue of the one executor, in its hands,
    in those of the other *)
Definition of_task (m : nat) (t : task) : nat := match t with TWrite k n => if Nat.eqb k m then n else 0 | TRecover _ => 0 end.
Definition promised (c : cfg) (m : nat) : nat :=
  list_sum (map (of_task m) (que c)) + match hpx c with HpRun t _ => of_task m t | _ => 0 end + match lpx c with LpWrite k n _ _ => of_task m (TWrite k n) | _ => 0 end.
(** the statements on [m] that have changed a row and have not yet looked at the limit *)
Definition about (m : nat) (h : hst) : bool := match h with HPush k _ => Nat.eqb k m | HFull k _ _ => Nat.eqb k m | _ => false end.
Definition underway (c : cfg) (m : nat) : nat := length (filter (about m) (hs c)).

(** ** The counter *)
Definition late (max m : nat) (h : hst) : nat := match h with HFull k _ hint => if Nat.eqb k m && Nat.leb max hint then 1 else 0 | _ => 0 end.
Definition below_max (max : nat) (c : cfg) : Prop := forall m, cnt (md c m) < max + sumf (late max m) (hs c).

Lemma sumf_set_late max m l i h h' : nth_error l i = Some h -> sumf (late max m) (set_h l i h') + late max m h = sumf (late max m) l + late max m h'.
Proof. apply sumf_set. Qed.
Ltac lates max m N := repeat match goal with |- context [sumf (late max m) (set_h ?l ?i ?h')] =>
  let P := fresh "P" in pose proof (sumf_set_late max m l i _ h' N) as P; cbn [late] in P; revert P; generalize (sumf (late max m) (set_h l i h')); intros ? P end.

Ltac hcase H i := match type of H with match nth_error (hs ?c) i with _ => _ end = _ =>
  let h := fresh "h" in let N := fresh "N" in destruct (nth_error (hs c) i) as [h|] eqn:N; [destruct h; try discriminate H | discriminate H] end.

Lemma task_cnt c t ok c' back m : run_task c t ok = (c', back) -> cnt (md c' m) = cnt (md c m) /\ hs c' = hs c.
Proof.
  unfold run_task. destruct t as [k n|k].
  - destruct (iffy (md c k)); [intros H; injection H as <- _; auto|]. destruct (Nat.eqb n 0); [intros H; injection H as <- _; auto|].
    destruct ok; intros H; injection H as <- _; proj; unfold upd; destruct (Nat.eqb_spec m k) as [->|D]; auto.
  - destruct ok; intros H; injection H as <- _; auto. proj. unfold upd. destruct (Nat.eqb_spec m k) as [->|D]; auto.
Qed.
Lemma step_below max nm c l c' : 0 < max -> below_max max c -> sstep max nm c l = Some c' -> below_max max c'.
Proof.
  intros PM B H m0. pose proof (B m0) as Bm. destruct l; cbn [sstep] in H.
  - destruct (mainx c); try discriminate H. sinv H. rewrite sumf_app, sumf_cons, sumf_nil. cbn [late]. lia.
  - hcase H i. destruct (Nat.ltb m nm); [|discriminate H]. sinv H. lates max m0 N. lia.
  - hcase H i. destruct (iffy (md c m)); sinv H; lates max m0 N; [lia|]. unfold upd. destruct (Nat.eqb_spec m0 m) as [->|D]; proj; lia.
  - hcase H i. sinv H. lates max m0 N. unfold upd. destruct (Nat.eqb_spec m0 m) as [->|D]; proj.
    + rewrite Nat.eqb_refl in *. cbn [andb] in *. destruct (Nat.leb_spec max (S (cnt (md c m)))); lia.
    + destruct (Nat.eqb_spec m m0); [congruence|]. cbn [andb] in *. lia.
  - hcase H i. destruct (Nat.leb max hint) eqn:LE.
    + destruct (hp_alive c); sinv H; lates max m0 N; unfold upd; destruct (Nat.eqb_spec m0 m) as [->|D]; proj; try lia;
        (destruct (Nat.eqb_spec m m0); [congruence|]); cbn [andb] in *; lia.
    + sinv H. lates max m0 N. rewrite LE, andb_false_r in *. lia.
  - hcase H i. sinv H. lates max m0 N. lia.
  - hcase H i. sinv H. lates max m0 N. lia.
  - destruct (existsb (Nat.eqb i) (ddl c)); [|discriminate H]. sinv H. exact Bm.
  - destruct (existsb (Nat.eqb i) (ddl c)); [|discriminate H]. destruct (nth_error (hs c) i) as [h|] eqn:N; [|sinv H; exact Bm].
    destruct h; sinv H; try exact Bm. lates max m0 N. lia.
  - hcase H i; (destruct (signalled c); [|discriminate H]); sinv H; lates max m0 N; lia.
  - hcase H i. sinv H. lates max m0 N. lia.
  - destruct (mainx c); try discriminate H. sinv H. exact Bm.
  - destruct (mainx c); try discriminate H. destruct (senders c); [discriminate H|]. sinv H. exact Bm.
  - destruct (mainx c); try discriminate H. destruct (forallb over (hs c)); [|discriminate H]. sinv H. exact Bm.
  - destruct (mainx c), (hpx c), (lpx c), (ddl c); try discriminate H; sinv H; exact Bm.
  - destruct (que c); [discriminate H|]. destruct (hpx c); try discriminate H; sinv H; exact Bm.
  - destruct (hpx c); try discriminate H. destruct (signalled c); [|discriminate H]. sinv H. exact Bm.
  - destruct (hpx c) as [|t dr| |]; try discriminate H. destruct (run_task c t ok) as [c1 back] eqn:R. sinv H.
    destruct (task_cnt _ _ _ _ _ m0 R) as [-> ->]. exact Bm.
  - destruct (que c); [|discriminate H]. destruct (hpx c); try discriminate H; sinv H; exact Bm.
  - destruct (lpx c); try discriminate H. sinv H. exact Bm.
  - destruct (lpx c); try discriminate H. destruct (signalled c); [|discriminate H]. sinv H. exact Bm.
  - destruct (lpx c) as [|[|m rest] fin| | |]; try discriminate H. sinv H. unfold upd. destruct (Nat.eqb_spec m0 m) as [->|D]; proj; lia.
  - destruct (lpx c) as [| |m n rest fin| |]; try discriminate H. destruct (run_task c (TWrite m n) ok) as [c1 back] eqn:R.
    destruct (task_cnt _ _ _ _ _ m0 R) as [E1 E2]. destruct back as [|b bs]; [|destruct (hp_alive c)]; sinv H; rewrite E1, E2; exact Bm.
  - destruct (lpx c) as [|[|m rest] fin| | |]; try discriminate H. sinv H. exact Bm.
Qed.
Lemma run_below max nm ls : forall c c', 0 < max -> below_max max c -> srun max nm c ls = Some c' -> below_max max c'.
Proof.
  induction ls as [|l ls IH]; intros c c' P B H; cbn [srun] in H; [injection H as <-; exact B|].
  destruct (sstep max nm c l) as [c1|] eqn:E; [|discriminate H]. eapply IH; [exact P| |exact H]. eapply step_below; eassumption.
Qed.

Lemma late_underway max m l : sumf (late max m) l + sumf (pcount m) l <= length (filter (about m) l).
Proof.
  induction l as [|h l IH]; [cbn; lia|]. rewrite !sumf_cons. cbn [filter]. destruct h; cbn [late pcount about] in *; try lia;
    destruct (Nat.eqb _ m); cbn [andb length]; try lia; destruct (Nat.leb _ _); cbn [length]; lia.
Qed.
Lemma sumf_sum A (f : A -> nat) l : sumf f l = list_sum (map f l).
Proof. induction l as [|x l IH]; [reflexivity|]. rewrite sumf_cons, IH. reflexivity. Qed.

(** ** C115 *)

(** Full claim: a model never has more changes waiting than the limit, but for those of statements under
    way. Proved, for every interleaving: the counter, which is all that the limit is compared with, obeys
    it; the changes waiting are those counted, those under way, those that batches already asked for will
    take, and those whose count vanished in a panic (C95). Missing: a bound on the batches asked for
    ([C115_unbounded]). *)
Theorem C115_counter_partial : forall max nm k c m, 0 < max -> reach max nm k c ->
  cnt (md c m) < max + underway c m /\ length (pend (md c m)) < max + underway c m + promised c m + lost c m.
Proof.
  intros max nm k c m P R. destruct (sound_reach max nm k c R) as (C & _). destruct R as [ls R].
  assert (B0 : below_max max (cfg0 k)) by (intros x; cbn; lia). pose proof (run_below max nm ls _ _ P B0 R m) as B. specialize (C m).
  pose proof (late_underway max m (hs c)) as U. unfold underway, promised. rewrite (sumf_sum _ (tcount m)) in C.
  change (tcount m) with (of_task m) in C. unfold hcount, lcount in C.
  destruct (hpx c) as [|t b| |], (lpx c); cbn [of_task] in *; change (tcount m) with (of_task m) in C; lia.
Qed.

Ltac go F LT IF := cbn [srun sstep hs nth_error]; rewrite LT; cbn [srun sstep hs nth_error set_h firstn skipn app md]; rewrite IF;
  cbn [srun sstep hs nth_error set_h firstn skipn app md with_h with_md cnt upd Nat.eqb setcnt];
  cbn [srun sstep hs nth_error set_h firstn skipn app md with_h with_md cnt upd Nat.eqb setcnt]; unfold upd at 1; cbn [Nat.eqb cnt]; rewrite F;
  cbn [srun sstep hp_alive hpx hs nth_error set_h firstn skipn app md with_h with_md with_q].

(** However small the limit is, any number of acknowledged changes can wait in memory: asking for a batch
    sets the counter back, and nobody waits for the batch. *)
Theorem C115_unbounded : forall max nm k n, 0 < nm -> exists c, reach max nm k c /\
  length (pend (md c 0)) = n /\ length (acked c) = n /\ disk (md c 0) = [] /\ iffy (md c 0) = false.
Proof.
  intros max nm k n NM.
  enough (X : exists c, reach max nm k c /\ hs c = [HIdle] /\ hpx c = HpWait /\ length (pend (md c 0)) = n /\ length (acked c) = n /\ disk (md c 0) = [] /\ iffy (md c 0) = false).
  { destruct X as (c & A & _ & _ & B). exists c. split; [exact A|exact B]. }
  induction n as [|n (c & [ls R] & HS & HP & L & A & D & IF)].
  - eexists. split; [exists [LConn]; reflexivity|]. repeat split.
  - assert (LT : Nat.ltb 0 nm = true) by (apply Nat.ltb_lt; exact NM). destruct c as [hs0 md0 q hp lp mn se dd u ac dn lo nx]. proj. subst hs0 hp.
    destruct (Nat.leb max (S (cnt (md0 0)))) eqn:F.
    + eexists. split.
      * exists (ls ++ [LRecv 0 0; LExec 0; LCount 0; LCheck 0; LAnswer 0]). rewrite (srun_app max nm), R. go F LT IF. reflexivity.
      * proj; unfold upd; cbn [Nat.eqb pend disk iffy setcnt]; rewrite !app_length, L, A; cbn [length]; repeat split; try assumption; lia.
    + eexists. split.
      * exists (ls ++ [LRecv 0 0; LExec 0; LCount 0; LCheck 0; LAnswer 0]). rewrite (srun_app max nm), R. go F LT IF. reflexivity.
      * proj; unfold upd; cbn [Nat.eqb pend disk iffy setcnt]; rewrite !app_length, L, A; cbn [length]; repeat split; try assumption; lia.
Qed.

(** While the driver of a model is marked as failed, nothing is added and nothing is taken. *)
Theorem C115_failed_disk : forall max nm c l c' m, sstep max nm c l = Some c' -> iffy (md c m) = true -> pend (md c' m) = pend (md c m).
Proof.
  intros max nm c l c' m0 H IF.
  assert (T : forall t ok c1 back, run_task c t ok = (c1, back) -> pend (md c1 m0) = pend (md c m0)).
  { intros t ok c1 back R. unfold run_task in R. destruct t as [k n|k].
    - destruct (iffy (md c k)) eqn:E; [injection R as <- _; reflexivity|]. assert (k <> m0) by congruence.
      destruct (Nat.eqb n 0), ok; injection R as <- _; proj; try reflexivity; unfold upd; destruct (Nat.eqb_spec m0 k); congruence.
    - destruct ok; injection R as <- _; proj; try reflexivity. unfold upd. destruct (Nat.eqb_spec m0 k) as [->|]; reflexivity. }
  destruct l; cbn [sstep] in H;
  try (hcase H i);
  repeat (match type of H with
         | (if ?b then _ else _) = _ => destruct b eqn:?
         | match mainx c with _ => _ end = _ => destruct (mainx c) eqn:?
         | match hpx c with _ => _ end = _ => destruct (hpx c) eqn:?
         | match lpx c with _ => _ end = _ => destruct (lpx c) eqn:?
         | match que c with _ => _ end = _ => destruct (que c) eqn:?
         | match ddl c with _ => _ end = _ => destruct (ddl c) eqn:?
         | match senders c with _ => _ end = _ => destruct (senders c) eqn:?
         | match ?l with [] => _ | _ => _ end = _ => is_var l; destruct l
         | (let '(_, _) := run_task c ?t ?ok in _) = _ => destruct (run_task c t ok) as [c1 back] eqn:R
         end; try discriminate H);
  try (sinv H; first [match goal with R : run_task c _ _ = _ |- _ => eapply T; exact R end | reflexivity | unfold upd; match goal with |- context [Nat.eqb m0 ?m] => destruct (Nat.eqb_spec m0 m) as [->|]; proj; solve [reflexivity|congruence] end]).
  all: try (injection H as <-; destruct (nth_error (hs c) i) as [h|]; [destruct h|]; reflexivity).
Qed.

(** ** The limit *)

(** The limits of the models that were there at the start add up to at most the fiftieth part of the memory
    that was free then. *)
Theorem C115_share : forall free models size, (0 < size -> 0 < models -> models * (limit free models size * size) * 50 <= free)%N.
Proof.
  intros free models size S M. unfold limit. rewrite N.max_l by lia.
  assert (A : (free / 50 / models / size * size <= free / 50 / models)%N) by (rewrite N.mul_comm; apply N.mul_div_le; lia).
  assert (B : (models * (free / 50 / models) <= free / 50)%N) by (apply N.mul_div_le; lia).
  assert (C : (50 * (free / 50) <= free)%N) by (apply N.mul_div_le; lia).
  transitivity (models * (free / 50 / models) * 50)%N; [apply N.mul_le_mono_r, N.mul_le_mono_l, A|lia].
Qed.

(** Full claim: the limits of all models add up to at most that part. The limit is computed once, so models
    made later each get the share of one that was there at the start. *)
Theorem C115_share_refuted : exists free models size later, (0 < size /\ 0 < models /\ 0 < limit free models size /\ (models + later) * (limit free models size * size) > free)%N.
Proof. exists 8589934592%N, 1%N, 24%N, 50%N. vm_compute. repeat split. Qed.

(** The second criterion of the code, a share of the rows of the model, never decides. *)
Theorem C115_rows_ignored : forall hint max rows, asks hint max rows = true <-> (max <= hint)%N.
Proof.
  intros hint max rows. unfold asks. rewrite <- N.leb_le. destruct (max <=? hint)%N; [|rewrite andb_false_r; tauto]. tauto.
Qed.

(** With less free memory than that, or on a system whose free memory is not known, every change asks for a
    batch of its own. *)
Theorem C115_no_memory : forall free models size hint rows, (0 < size -> free < 50 * N.max models 1 * size -> asks hint (limit free models size) rows = true)%N.
Proof.
  intros free models size hint rows S F. apply C115_rows_ignored. unfold limit. rewrite !N.div_div by lia. rewrite N.div_small by lia. lia.
Qed.

(** ** Cases *)
Example C115_example : match srun 2 1 (cfg0 1) [LConn; LConn; LRecv 0 0; LExec 0; LCount 0; LCheck 0; LAnswer 0; LRecv 0 0; LRecv 1 0; LExec 0; LExec 1; LCount 0; LCount 1] with
  | Some c => cnt (md c 0) = 3 /\ underway c 0 = 2 /\ promised c 0 = 0
      /\ match srun 2 1 c [LCheck 0; LCheck 1; LAnswer 0; LAnswer 1] with Some c => cnt (md c 0) = 0 /\ underway c 0 = 0 /\ promised c 0 = 3 /\ length (pend (md c 0)) = 3 | None => False end
  | None => False end.
Proof. vm_compute. repeat split. Qed.
Example C115_failed_example : match srun 1 1 (cfg0 1) [LConn; LRecv 0 0; LExec 0; LCount 0; LCheck 0; LAnswer 0; LHpTake; LHpRun false; LRecv 0 0] with
  | Some c => iffy (md c 0) = true /\ pend (md c 0) = [0%N] /\ match sstep 1 1 c (LExec 0) with Some c' => pend (md c' 0) = [0%N] /\ hs c' = [HIdle] | None => False end
  | None => False end.
Proof. vm_compute. repeat split. Qed.
Example C115_limit_example : (limit 8589934592 10 24 = 715827 /\ limit 0 3 24 = 0 /\ asks 715826 715827 100 = false /\ asks 715827 715827 100000000 = true)%N.
Proof. vm_compute. repeat split. Qed.

Print Assumptions C115_counter_partial.
Print Assumptions C115_unbounded.
Print Assumptions C115_failed_disk.
Print Assumptions C115_share.
Print Assumptions C115_share_refuted.
Print Assumptions C115_rows_ignored.
Print Assumptions C115_no_memory.
