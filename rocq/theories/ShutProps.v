(** C95-C97: the shutdown of the server, for every number of connections, models and listeners and every interleaving *)
From Coq Require Import List NArith Bool Arith.
From Verif Require Import ShutModel ShutSpec ShutProofs.
Import ListNotations.

(** ** C95: a graceful shutdown keeps every acknowledged change *)

(** In every state the file of a model holds a beginning of the changes made to it: never a gap, never another order. *)
Theorem C95_prefix : forall max nm k c m, reach max nm k c -> exists rest, made c m = disk (md c m) ++ rest.
Proof. intros max nm k c m R. destruct (sound_reach max nm k c R) as (_ & O & _). exists (pend (md c m)). apply O. Qed.

(** When the server has ended, the changes that are missing in the file of [m] are exactly the last ones, as many as the counter of the
    model says (counted after the last look at the counter) plus the counts that vanished in panics. *)
Theorem C95_exact : forall max nm k c m, reach max nm k c -> mainx c = MClosed ->
  disk (md c m) = firstn (length (made c m) - (cnt (md c m) + lost c m)) (made c m) /\ cnt (md c m) + lost c m <= length (made c m).
Proof.
  intros max nm k c m R M. destruct (closed_exact nm c m (sound_reach max nm k c R) M) as [O L]. rewrite <- L, O, app_length.
  split; [|apply Nat.le_add_l]. rewrite Nat.add_sub. rewrite firstn_app, Nat.sub_diag, firstn_O, app_nil_r, firstn_all. reflexivity.
Qed.

(** Missing for the full statement: the rule has to be kept (an executor takes notice of the signal only when no statement is under way, and
    no statement is received afterwards), and the disk must not fail. The code does not keep the rule: see the refutations. *)
Theorem C95_safe_partial : forall max nm k ls c, srun max nm (cfg0 k) ls = Some c -> ruled max nm (cfg0 k) ls = true -> mainx c = MClosed ->
  durable c /\ forall m, m < nm -> disk (md c m) = made c m.
Proof.
  intros max nm k ls c R RU M. pose proof (sound_run max nm _ _ _ (sound_init nm k) R) as S0.
  pose proof (calm_run max nm _ _ _ (calm_init nm k) RU R) as K. split; [exact (calm_durable nm c S0 K M)|].
  intros m L. symmetry. exact (calm_closed nm c m S0 K M L).
Qed.

(** one connection writes, gets its answer; the server is told to stop; every task goes its way: the change is in the file *)
Definition quiet_run : list lab :=
  [LConn; LRecv 0 0; LExec 0; LCount 0; LCheck 0; LAnswer 0; LRecv 0 1; LExec 0; LCount 0; LCheck 0; LAnswer 0; LTerm; LDrop; LDrop; LQuit 0;
   LHpSig; LHpEnd; LLpSig; LTake; LLpWrite true; LTake; LLpWrite true; LScanEnd; LFin; LJoin].
Example C95_example : exists c, srun 100 2 (cfg0 1) quiet_run = Some c /\ ruled 100 2 (cfg0 1) quiet_run = true /\ mainx c = MClosed
  /\ acked c = [0%N; 1%N] /\ disk (md c 0) = [0%N] /\ disk (md c 1) = [1%N].
Proof. eexists. split; [vm_compute; reflexivity|]. repeat (split; [vm_compute; reflexivity|]). vm_compute; reflexivity. Qed.

Lemma not_durable : forall c x, In x (acked c) -> (forall m, ~ In x (disk (md c m)) \/ ~ In (m, x) (done c)) -> ~ durable c.
Proof. intros c x A N D. destruct (D x A) as (m & I & J). destruct (N m); contradiction. Qed.

(** The executors see the signal while a statement is still under way: they write what there is and end; the statement is executed and answered
    with success afterwards, and nobody writes its change. The disk works. *)
Theorem C95_late_refuted : exists ls c, srun 100 1 (cfg0 1) ls = Some c /\ forallb obeys ls = true /\ mainx c = MClosed /\ ~ durable c.
Proof.
  exists [LConn; LRecv 0 0; LTerm; LDrop; LDrop; LLpSig; LTake; LLpWrite true; LScanEnd; LHpSig; LHpEnd; LExec 0; LCount 0; LCheck 0; LAnswer 0; LQuit 0; LFin; LJoin].
  eexists. split; [vm_compute; reflexivity|]. split; [reflexivity|]. split; [reflexivity|]. apply (not_durable _ 0%N); [now left|].
  intros m. left. destruct m; vm_compute; exact (fun X => X).
Qed.

(** Also changes that were answered before the signal can be lost: the queue is in the order of the changes, the counter in the order of the
    counts. Another connection is between the two when the last batch is taken. *)
Theorem C95_answered_before_refuted : exists ls1 ls2 c1 c, srun 100 1 (cfg0 1) ls1 = Some c1 /\ mainx c1 = MListen /\ acked c1 = [1%N]
  /\ srun 100 1 c1 (LTerm :: ls2) = Some c /\ forallb obeys (ls1 ++ ls2) = true /\ mainx c = MClosed /\ disk (md c 0) = [0%N] /\ ~ durable c.
Proof.
  exists [LConn; LConn; LRecv 0 0; LExec 0; LRecv 1 0; LExec 1; LCount 1; LCheck 1; LAnswer 1].
  exists [LDrop; LDrop; LLpSig; LTake; LLpWrite true; LScanEnd; LHpSig; LHpEnd; LCount 0; LCheck 0; LQuit 0; LQuit 1; LFin; LJoin].
  eexists. eexists. split; [vm_compute; reflexivity|]. split; [reflexivity|]. split; [reflexivity|]. split; [vm_compute; reflexivity|].
  split; [reflexivity|]. split; [reflexivity|]. split; [reflexivity|]. apply (not_durable _ 1%N); [now left|].
  intros m. destruct (Nat.eq_dec m 0) as [->|D].
  - left. vm_compute. intros [E|[]]. discriminate E.
  - right. intros [E|[E|[]]]; [discriminate E|]. injection E as E. congruence.
Qed.

(** A statement that fills the cache after the high-priority executor has ended panics, and takes the counts of changes of other connections
    with it: changes answered before the signal are lost. *)
Theorem C95_panic_refuted : exists ls1 ls2 c1 c, srun 2 1 (cfg0 1) ls1 = Some c1 /\ mainx c1 = MListen /\ acked c1 = [0%N]
  /\ srun 2 1 c1 (LTerm :: ls2) = Some c /\ forallb obeys (ls1 ++ ls2) = true /\ mainx c = MClosed /\ In HPanic (hs c) /\ ~ durable c.
Proof.
  exists [LConn; LConn; LRecv 0 0; LExec 0; LCount 0; LCheck 0; LAnswer 0; LRecv 1 0].
  exists [LDrop; LDrop; LHpSig; LHpEnd; LExec 1; LCount 1; LCheck 1; LLpSig; LTake; LLpWrite true; LScanEnd; LQuit 0; LFin; LJoin].
  eexists. eexists. split; [vm_compute; reflexivity|]. split; [reflexivity|]. split; [reflexivity|]. split; [vm_compute; reflexivity|].
  split; [reflexivity|]. split; [reflexivity|]. split; [right; now left|]. apply (not_durable _ 0%N); [now left|].
  intros m. left. destruct m; vm_compute; exact (fun X => X).
Qed.

(** One failed write of one model in the last scan, after the high-priority executor has ended, ends the scan: the other models are not written although
    their files are in order. All changes were answered before the signal and no statement is under way. *)
Theorem C95_other_model_refuted : exists ls1 ls2 c1 c, srun 100 2 (cfg0 1) ls1 = Some c1 /\ mainx c1 = MListen /\ acked c1 = [0%N; 1%N] /\ hs c1 = [HIdle]
  /\ srun 100 2 c1 (LTerm :: ls2) = Some c /\ filter (fun l => negb (obeys l)) (ls1 ++ ls2) = [LLpWrite false]
  /\ mainx c = MClosed /\ lpx c = LpDead /\ made c 1 = [1%N] /\ disk (md c 1) = [] /\ iffy (md c 1) = false.
Proof.
  exists [LConn; LRecv 0 0; LExec 0; LCount 0; LCheck 0; LAnswer 0; LRecv 0 1; LExec 0; LCount 0; LCheck 0; LAnswer 0].
  exists [LDrop; LDrop; LQuit 0; LHpSig; LHpEnd; LLpSig; LTake; LLpWrite false; LFin; LJoin].
  eexists. eexists. split; [vm_compute; reflexivity|]. split; [reflexivity|]. split; [reflexivity|]. split; [reflexivity|]. split; [vm_compute; reflexivity|].
  repeat (split; [reflexivity|]). reflexivity.
Qed.

(** ** C96: a graceful shutdown comes to its end *)

(** From every state whatsoever the server can still come to its end, if the disk obeys from now on. Missing: that it does so under every fair
    schedule, and without the condition on the disk (false, see below). *)
Theorem C96_can_end_partial : forall max nm k c, reach max nm k c ->
  exists ls c', forallb obeys ls = true /\ srun max nm c ls = Some c' /\ mainx c' = MClosed.
Proof.
  intros max nm k c R. pose proof (sound_reach max nm k c R) as S0. destruct R as [l0 R0].
  destruct (shutdown_can_end max nm c S0 (live_run max nm _ _ _ (live_init k) R0)) as (c' & (ls & O & R) & M). exists ls, c'. auto.
Qed.

(** While a recovery is pending and recoveries fail, the server does not end, whatever else happens and for however long. *)
Theorem C96_never_ends : forall max nm k c ls c', reach max nm k c -> recovering c -> hpx c <> HpExit -> forallb fails ls = true ->
  srun max nm c ls = Some c' -> mainx c' <> MClosed.
Proof.
  intros max nm k c ls c' R RC NE F H M. destruct (run_recovering max nm ls c c' RC NE F H) as [_ NE'].
  pose proof (sound_run max nm ls c c' (sound_reach max nm k c R) H) as (_ & _ & SH & _). destruct (sh_closed _ SH M) as (HP & _). contradiction.
Qed.

(** Such a state is reached by one failed write: all connections are gone, the signal was given, and the server tries the recovery again and again,
    without a pause. *)
Definition stuck_run : list lab :=
  [LConn; LRecv 0 0; LExec 0; LCount 0; LCheck 0; LAnswer 0; LTimer; LTake; LLpWrite false; LScanEnd; LTerm; LDrop; LDrop; LQuit 0; LFin;
   LLpSig; LTake; LLpWrite false; LScanEnd; LHpSig].
Theorem C96_refuted : exists c, srun 100 1 (cfg0 1) stuck_run = Some c /\ mainx c = MJoin /\ hs c = [HGone] /\ lpx c = LpExit
  /\ forall ls c', forallb fails ls = true -> srun 100 1 c ls = Some c' -> mainx c' <> MClosed.
Proof.
  eexists. split; [vm_compute; reflexivity|]. split; [reflexivity|]. split; [reflexivity|]. split; [reflexivity|].
  intros ls c' F H. refine (C96_never_ends 100 1 1 _ ls c' _ _ _ F H).
  - exists stuck_run. vm_compute. reflexivity.
  - exists 0. left. now left.
  - intros E. discriminate E.
Qed.
(** … and the loop does turn: two steps bring the executor back to where it was. *)
Example C96_loop : exists c c', srun 100 1 (cfg0 1) stuck_run = Some c
  /\ srun 100 1 c [LHpTake; LHpRun false; LHpTake; LHpRun false; LHpTake; LHpRun false] = Some c' /\ que c = que c' /\ hpx c = hpx c' /\ hpx c = HpDrain.
Proof. eexists. eexists. split; [vm_compute; reflexivity|]. split; [vm_compute; reflexivity|]. repeat split. Qed.
Example C96_example : exists ls c', (exists c, srun 100 1 (cfg0 1) stuck_run = Some c /\ srun 100 1 c ls = Some c') /\ mainx c' = MClosed /\ disk (md c' 0) = [0%N].
Proof.
  exists [LHpTake; LHpRun true; LHpTake; LHpRun true; LHpTake; LHpRun true; LHpEnd; LJoin]. eexists.
  split; [eexists; split; vm_compute; reflexivity|]. split; reflexivity.
Qed.

(** ** C97: threads never use the memory of a connection that has ended *)

(** Before the signal: never. Missing: the time after it (false, see below). *)
Theorem C97_before_signal_partial : forall max nm k c, reach max nm k c -> senders c <> 0 ->
  uaf c = false /\ forall i, In i (ddl c) -> nth_error (hs c) i = Some HDdl.
Proof.
  intros max nm k c [ls R] S0. refine (lent_run max nm ls (cfg0 k) c _ R S0). intros _. split; [reflexivity|intros i []].
Qed.
Example C97_example : exists c, srun 100 1 (cfg0 1) [LConn; LConn; LDdl 0; LUse 0; LDdl 1; LDdlEnd 0; LLeave 0; LUse 1; LTerm; LDrop] = Some c
  /\ senders c = 1 /\ ddl c = [1] /\ hs c = [HGone; HDdl].
Proof. eexists. split; [vm_compute; reflexivity|]. repeat (split; [reflexivity|]). reflexivity. Qed.

(** After the signal it can always happen: wherever a handler waits for its thread. *)
Theorem C97_after_signal : forall max nm c i, senders c = 0 -> In i (ddl c) -> nth_error (hs c) i = Some HDdl ->
  exists c', srun max nm c [LQuit i; LUse i] = Some c' /\ uaf c' = true.
Proof.
  intros max nm c i S0 I N. cbn [srun sstep]. rewrite N. unfold signalled. rewrite S0. cbn [Nat.eqb].
  change (ddl (with_h c i HGone)) with (ddl c).
  assert (E : existsb (Nat.eqb i) (ddl c) = true) by (apply existsb_exists; exists i; split; [exact I|apply Nat.eqb_refl]). rewrite E.
  change (hs (with_h c i HGone)) with (set_h (hs c) i HGone). rewrite (nth_set_same _ _ _ HGone N). eexists. split; [reflexivity|].
  cbn. apply orb_true_r.
Qed.
Theorem C97_refuted : exists ls c, srun 100 1 (cfg0 1) ls = Some c /\ uaf c = true.
Proof. exists [LConn; LDdl 0; LTerm; LDrop; LDrop; LQuit 0; LUse 0]. eexists. split; [vm_compute; reflexivity|reflexivity]. Qed.

Print Assumptions C95_prefix.
Print Assumptions C95_exact.
Print Assumptions C95_safe_partial.
Print Assumptions C95_late_refuted.
Print Assumptions C95_answered_before_refuted.
Print Assumptions C95_panic_refuted.
Print Assumptions C95_other_model_refuted.
Print Assumptions C96_can_end_partial.
Print Assumptions C96_never_ends.
Print Assumptions C96_refuted.
Print Assumptions C97_before_signal_partial.
Print Assumptions C97_after_signal.
Print Assumptions C97_refuted.
