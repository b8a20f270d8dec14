(** C98: pending changes are written within the configured window. C99: what is dropped disappears from the disk. *)
From Coq Require Import List NArith Bool Lia.
From Verif Require Import TimerModel TimerSpec TimerProofs.
Import ListNotations.
Local Open Scope N_scope.

(** ** C98 *)

(** As long as nothing is dropped, the models are looked at exactly one window after the last time was over, and never later. What is missing for the
    full statement: runs in which directories are deleted (see below, where it is false). *)
Theorem C98_quiet_partial dur t0 ds ls s :
  run dur (lp0 t0 ds) ls = Some s -> asks ls = [] -> stops ls = false ->
  spaced dur t0 (writes s) /\ now s <= last_end t0 (writes s) + dur.
Proof.
  intros R A ST. destruct (run_quiet dur t0 ls (lp0 t0 ds) s A ST eq_refl eq_refl eq_refl Logic.I (N.le_refl _)) as (_ & E & SP & _ & U); [cbn [now since lp0]; lia|exact R|].
  split; [exact SP|]. rewrite <- E. exact U.
Qed.
(** two windows of 300 seconds, the first write taking 5 *)
Example C98_quiet_example :
  option_map (fun s => (now s, writes s)) (run 300 (lp0 0 []) [LWait 120; LMake (DSpace 1); LWait 180; LTimer 5; LWait 300; LTimer 1; LWait 7]) = Some (613, [(605, 606); (300, 305)]).
Proof. vm_compute. reflexivity. Qed.

(** In every run: the timer is over exactly when nothing the executor did - deletions too - was finished within the last window. *)
Theorem C98_exact dur t0 ds ls s :
  run dur (lp0 t0 ds) ls = Some s -> over s = false ->
  ((exists d, step dur s (LTimer d) <> None) <-> forall e, In e (t0 :: ends dur (lp0 t0 ds) ls) -> e + dur <= now s).
Proof.
  intros R O. destruct (run_since dur t0 ls (lp0 t0 ds) s (fun _ _ => Logic.I) O (N.le_refl _) R) as (A & B & C & D). cbn [since lp0] in C, D. split.
  - intros (d & H) e I. unfold step in H. rewrite O in H. destruct (_ <=? _) eqn:X; [|contradiction]. apply N.leb_le in X.
    destruct I as [<-|I]; [lia|]. specialize (B e I). lia.
  - intros H. exists 0. unfold step. rewrite O. assert (X : since s + dur <= now s).
    { apply H. destruct C as [C|C]; [left; congruence|now right]. }
    apply N.leb_le in X. rewrite X. discriminate.
Qed.
(** a deletion 290 seconds after the start: 300 seconds after the start nothing is written *)
Example C98_exact_example :
  match run 300 (lp0 0 [DSpace 1]) [LWait 290; LAsk (DSpace 1); LTask true 0; LWait 10] with
  | Some s => now s = 300 /\ step 300 s (LTimer 0) = None /\ ends 300 (lp0 0 [DSpace 1]) [LWait 290; LAsk (DSpace 1); LTask true 0; LWait 10] = [290]
  | None => False
  end.
Proof. vm_compute. split; [|split]; reflexivity. Qed.

(** Drops that come more often than once per window keep the models from being written, for any length of time, without any failure. *)
Theorem C98_starved_refuted : exists dur, 2 <= dur /\ forall T, exists ls s,
  run dur (lp0 0 []) ls = Some s /\ T <= now s /\ writes s = [] /\ failures ls = O /\ stops ls = false.
Proof.
  exists 300. split; [lia|]. intros T. destruct (run_turns 300 (N.to_nat T)) as (s & R & O & Q & E & W & TM); [lia|].
  destruct (turns_facts 300 (N.to_nat T)) as [F S1]. exists (turns 300 (N.to_nat T)), s. split; [exact R|]. split; [rewrite TM; lia|]. split; [exact W|]. split; [exact F|exact S1].
Qed.
(** the same for every window of at least two seconds *)
Theorem C98_starved dur T : 2 <= dur -> exists ls s, run dur (lp0 0 []) ls = Some s /\ T <= now s /\ writes s = [] /\ failures ls = O /\ stops ls = false.
Proof.
  intros D. destruct (run_turns dur (N.to_nat T)) as (s & R & O & Q & E & W & TM); [lia|].
  destruct (turns_facts dur (N.to_nat T)) as [F S1]. exists (turns dur (N.to_nat T)), s. split; [exact R|].
  split; [rewrite TM, N2Nat.id; assert (1 <= dur - 1) by lia; nia|]. split; [exact W|]. split; [exact F|exact S1].
Qed.

(** Once the executor has been asked to delete a directory that is not there, the models are not written any more until the server is stopped,
    whatever happens. *)
Theorem C98_missing_directory dur x s ls s' : 0 < dur ->
  over s = false -> since s = now s -> In x (map todo (que s)) -> ~ In x (disk s) ->
  run dur s ls = Some s' -> ~ In x (makes ls) -> stops ls = false ->
  writes s' = writes s /\ In x (map todo (que s')).
Proof.
  intros P O E Q D R NM NS. destruct (run_stuck dur x ls P s s' (conj O (conj E (conj Q D))) NM NS R) as [(_ & _ & Q' & _) W]. auto.
Qed.
(** One deletion that fails once is enough to get there: DROP MODEL, DROP SPACE, the first deletion fails and goes behind the second, the second deletes
    both. After that nothing is ever written. *)
Definition unlucky : list lab :=
  [LMake (DSpace 1); LMake (DModel 1 1); LWait 10; LAsk (DModel 1 1); LAsk (DSpace 1); LTask false 0; LTask true 0].
Theorem C98_stuck_refuted : exists dur ls s, 0 < dur /\ run dur (lp0 0 []) ls = Some s /\ failures ls = 1%nat /\ stops ls = false /\
  forall ls' s', run dur s ls' = Some s' -> ~ In (DModel 1 1) (makes ls') -> stops ls' = false -> writes s' = [].
Proof.
  exists 300, unlucky. destruct (run 300 (lp0 0 []) unlucky) as [s|] eqn:R; [|vm_compute in R; discriminate R].
  exists s. split; [lia|]. split; [reflexivity|]. split; [reflexivity|]. split; [reflexivity|]. intros ls' s' R' NM NS.
  vm_compute in R. injection R as <-.
  refine (proj1 (C98_missing_directory 300 (DModel 1 1) _ ls' s' _ _ _ _ _ R' NM NS)).
  - lia.
  - reflexivity.
  - reflexivity.
  - now left.
  - intros [].
Qed.
(** such runs go on for ever *)
Example C98_stuck_example :
  option_map (fun s => (now s, writes s, que s)) (run 300 (lp0 0 []) (unlucky ++ repeat (LTask true 0) 100)) = Some (3010, [], [mk_task false (DModel 1 1)]).
Proof. vm_compute. reflexivity. Qed.

(** ** C99 *)

(** Whenever the queue is empty, every directory that was to be deleted, and that nobody made again, is gone with all that was in it. What is missing:
    that the queue gets empty (C99_worked_off: it does when the directories are there and the disk obeys; C98_missing_directory: it never does when one
    is not there), and shutdowns. *)
Theorem C99_deleted_partial dur t0 ds ls s x :
  run dur (lp0 t0 ds) ls = Some s -> que s = [] -> dropped x ls -> forall y, In y (disk s) -> ~ within y x.
Proof.
  intros R Q D. destruct (run_dropped dur x ls _ s D R) as [I|G]; [rewrite Q in I; destruct I|intros y I; apply outside_within; exact (G y I)].
Qed.
Theorem C99_worked_off dur s : over s = false -> (forall t, In t (que s) -> In (todo t) (disk s)) ->
  (forall l1 a l2 b l3, map todo (que s) = l1 ++ a :: l2 ++ b :: l3 -> ~ within b a) ->
  exists s', run dur s (map (fun _ => LTask true 0) (que s)) = Some s' /\ que s' = [].
Proof. intros O E SEP. apply (run_work dur (que s) s O eq_refl E). intros l1 a l2 b l3 Q. apply outside_within. exact (SEP l1 a l2 b l3 Q). Qed.
(** a model, then its space *)
Example C99_worked_off_example :
  let s := mk_lp 5 5 [mk_task true (DModel 1 1); mk_task false (DSpace 1)] [DSpace 1; DModel 1 1; DSpace 2] [] false in
  (forall t, In t (que s) -> In (todo t) (disk s)) /\ (forall l1 a l2 b l3, map todo (que s) = l1 ++ a :: l2 ++ b :: l3 -> ~ within b a).
Proof.
  cbn [que disk map todo]. split.
  - intros t [<-|[<-|[]]]; cbn [todo]; [right; now left|now left].
  - intros l1 a l2 b l3 E. destruct l1 as [|? [|? l1]]; cbn [app] in E; [|injection E; intros; destruct l2; discriminate|injection E; intros; destruct l1; discriminate].
    destruct l2 as [|? l2]; [|injection E; intros; destruct l2; discriminate]. injection E as <- <- <-. intro W. inversion W.
Qed.
(** And nothing else is deleted. *)
Theorem C99_nothing_else dur t0 ds ls s x :
  run dur (lp0 t0 ds) ls = Some s -> In x ds -> (forall y, In y (asks ls) -> ~ within x y) -> In x (disk s).
Proof. intros R I NA. apply (run_keeps dur x ls (lp0 t0 ds) s I); [intros y []|intros y Y; apply outside_within; exact (NA y Y)|exact R]. Qed.
Example C99_example :
  option_map (fun s => (disk s, que s)) (run 60 (lp0 0 [DSpace 1; DModel 1 1; DModel 1 2; DSpace 2; DModel 2 1])
    [LAsk (DModel 1 2); LTask false 1; LAsk (DSpace 2); LTask true 0; LTask true 0; LWait 20]) = Some ([DSpace 1; DModel 1 1], [])
  /\ dropped (DModel 1 2) [LAsk (DModel 1 2); LTask false 1; LAsk (DSpace 2); LTask true 0; LTask true 0; LWait 20].
Proof. split; [vm_compute; reflexivity|]. right. split; [reflexivity|]. intros y [].
Qed.

(** At a shutdown the queue is thrown away: what was dropped just before stays on the disk. No later start deletes it, as nothing refers to it any more. *)
Theorem C99_shutdown_refuted : exists dur ls s x, run dur (lp0 0 []) ls = Some s /\ failures ls = O /\ dropped x ls /\ over s = true /\ In x (disk s) /\
  forall t0 ls' s', run dur (lp0 t0 (disk s)) ls' = Some s' -> (forall y, In y (asks ls') -> ~ within x y) -> In x (disk s').
Proof.
  exists 300, [LMake (DSpace 1); LAsk (DSpace 1); LStop 0].
  destruct (run 300 (lp0 0 []) [LMake (DSpace 1); LAsk (DSpace 1); LStop 0]) as [s|] eqn:R; [|vm_compute in R; discriminate R].
  exists s, (DSpace 1). split; [reflexivity|]. split; [reflexivity|]. split.
  { left. right. split; [reflexivity|]. intros y []. }
  vm_compute in R. injection R as <-. split; [reflexivity|]. split; [now left|].
  intros t0 ls' s' R' NA. exact (C99_nothing_else 300 t0 _ ls' s' (DSpace 1) R' (or_introl eq_refl) NA).
Qed.

Print Assumptions C98_quiet_partial.
Print Assumptions C98_exact.
Print Assumptions C98_starved_refuted.
Print Assumptions C98_starved.
Print Assumptions C98_missing_directory.
Print Assumptions C98_stuck_refuted.
Print Assumptions C99_deleted_partial.
Print Assumptions C99_worked_off.
Print Assumptions C99_nothing_else.
Print Assumptions C99_shutdown_refuted.
