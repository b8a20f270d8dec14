(** C37: the ordered index is a map that remembers the order of the last writes. *)
From Coq Require Import List Arith Bool Lia Permutation.
From Verif Require Import StordModel StordSpec StordProofs.
Import ListNotations.

(** memory nobody uses *)
Definition heap0 (K V : Type) : heap K V := MkHeap K V [] (fun _ => 0) (fun _ => 0) (fun _ => None) (fun _ => None).
Definition eq_decides {A} (f : A -> A -> bool) : Prop := forall a b, f a b = true <-> a = b.
(** an allocator gives a block that is not in use *)
Definition allocator (malloc : list nat -> nat) : Prop := forall l, malloc l <> 0 /\ ~ In (malloc l) l.

(** the smallest address not in use; and one that takes the address released last *)
Definition first_fit (l : list nat) : nat := match find (fun a => negb (existsb (Nat.eqb a) l)) (seq 1 (S (length l))) with Some a => a | None => 0 end.
Lemma first_fit_ok : allocator first_fit.
Proof.
  intros l. unfold first_fit. destruct (find _ _) eqn:E.
  - apply find_some in E. destruct E as (I & N). apply in_seq in I. split; [lia|]. intros J.
    apply negb_true_iff in N. assert (X : existsb (Nat.eqb n) l = true) by (apply existsb_exists; exists n; split; [exact J|apply Nat.eqb_refl]). congruence.
  - exfalso. assert (INC : incl (seq 1 (S (length l))) l).
    { intros a I. pose proof (find_none _ _ E a I) as N. cbn beta in N. apply negb_false_iff, existsb_exists in N. destruct N as (b & J & Q).
      apply Nat.eqb_eq in Q. subst b. exact J. }
    apply NoDup_incl_length in INC; [|apply seq_NoDup]. rewrite seq_length in INC. lia.
Qed.

(** * Every history *)
(** Whatever the operations, keys, values, allocator and strategy: no undefined behaviour, and every answer
    (lookups, sizes, old values, iteration from both ends) is that of the list. Missing for the full
    statement: iteration that takes the map apart, see [C37_refuted]. *)
Theorem C37_partial : forall K V (keq : K -> K -> bool) malloc liberal (os : list (op K V)),
  eq_decides keq -> allocator malloc ->
  exists i h, exec_all K V keq malloc liberal empty_idx os (heap0 K V) = Some ((i, snd (srun K V keq [] os)), h).
Proof.
  intros K V keq malloc liberal os HK HM.
  destruct (exec_all_ok K V keq HK malloc HM liberal os empty_idx (heap0 K V) []) as (i & h & E & _); [apply Rep_empty; reflexivity|].
  exists i, h. exact E.
Qed.

(** The memory the answers come from cannot be seen in them. *)
Theorem C37_memory_unobservable : forall K V (keq : K -> K -> bool) m1 m2 b1 b2 (os : list (op K V)),
  eq_decides keq -> allocator m1 -> allocator m2 ->
  option_map (fun x => snd (fst x)) (exec_all K V keq m1 b1 empty_idx os (heap0 K V)) =
  option_map (fun x => snd (fst x)) (exec_all K V keq m2 b2 empty_idx os (heap0 K V)).
Proof.
  intros K V keq m1 m2 b1 b2 os HK H1 H2.
  destruct (C37_partial K V keq m1 b1 os HK H1) as (i & h & ->). destruct (C37_partial K V keq m2 b2 os HK H2) as (i' & h' & ->). reflexivity.
Qed.

(** * Iteration *)
Lemma srun_keys K V (keq : K -> K -> bool) (HK : eq_decides keq) os : forall l : list (K * V), NoDup (map fst l) -> NoDup (map fst (fst (srun K V keq l os))).
Proof.
  intros l D.
  (* by the representation: any list with distinct keys is represented after inserting its pairs *)
  revert l D. induction os as [|o os IH]; intros l D; cbn [srun fst]; [exact D|]. apply IH. clear IH os.
  assert (DEL : forall k, NoDup (map fst (sdel K V keq k l)) /\ ~ In k (map fst (sdel K V keq k l))).
  { intros k. clear o. induction l as [|(k', v') l IH]; [split; [constructor|intros []]|]. inversion D as [|? ? N D']; subst. destruct (IH D') as (A & B).
    unfold sdel in *. cbn [filter fst]. destruct (keq k' k) eqn:E; cbn [negb]; [split; assumption|]. cbn [map fst]. split.
    - constructor; [|exact A]. intros I. apply N. apply in_map_iff in I. destruct I as (x & Q & I). apply filter_In in I. apply in_map_iff. exists x. tauto.
    - intros [I|I]; [|contradiction]. subst k'. rewrite (proj2 (HK k k) eq_refl) in E. discriminate E. }
  assert (ADD : forall k v (l' : list (K * V)), NoDup (map fst l') -> ~ In k (map fst l') -> NoDup (map fst (l' ++ [(k, v)]))).
  { intros k v l' A N. rewrite map_app. cbn [map fst]. apply (Permutation_NoDup (l := k :: map fst l')); [apply Permutation_cons_append|]. constructor; assumption. }
  assert (GET : forall k, sget K V keq k l = None -> ~ In k (map fst l)).
  { intros k E I. unfold sget in E. destruct (find _ l) as [(k', v)|] eqn:F; [discriminate E|]. apply in_map_iff in I. destruct I as (x & Q & I).
    pose proof (find_none _ _ F x I) as N. cbn beta in N. rewrite Q, (proj2 (HK k k) eq_refl) in N. discriminate N. }
  destruct o as [k v|k v|k v|k v|k| | |k| |ds]; cbn [sstep fst]; try exact D; try (constructor; fail).
  - destruct (sget K V keq k l) eqn:E; cbn [fst]; [exact D|]. apply ADD; [exact D|apply GET; exact E].
  - destruct (sget K V keq k l) eqn:E; cbn [fst]; [|exact D]. unfold sput. rewrite map_map. erewrite map_ext; [exact D|]. intros x. cbn beta. destruct (keq (fst x) k); reflexivity.
  - destruct (sget K V keq k l) eqn:E; cbn [fst]; [|exact D]. destruct (DEL k). apply ADD; assumption.
  - destruct (DEL k). apply ADD; assumption.
  - apply DEL.
Qed.

(** a whole pass from the front, and one from the back *)
Lemma pass_front K V (l : list (K * V)) n : map fst (sfront K V l (repeat true (length l + n))) = map Some l ++ repeat None n.
Proof.
  induction l as [|x l IH]; cbn [length plus app repeat sfront map].
  - induction n as [|n IH]; [reflexivity|]. cbn [repeat sfront map fst]. rewrite IH. reflexivity.
  - cbn [fst]. rewrite IH. reflexivity.
Qed.
Lemma pass_back K V (l : list (K * V)) n : map fst (sfront K V l (repeat false (length l + n))) = map Some (rev l) ++ repeat None n.
Proof.
  rewrite <- (rev_involutive l) at 1. rewrite <- (rev_length l) at 1. generalize (rev l). clear l. intros l.
  induction l as [|x l IH]; cbn [length plus repeat sfront map].
  - induction n as [|n IH]; [reflexivity|]. cbn [repeat sfront rev map fst app] in *. rewrite IH. reflexivity.
  - rewrite rev_involutive. cbn [map fst app]. rewrite IH. reflexivity.
Qed.

(** After any history: a pass from the front gives each key once, oldest write first; a pass from the back the
    same pairs in the reverse order; the passes in no order the same pairs; the reported size is their number. *)
Theorem C37_iteration : forall K V (keq : K -> K -> bool) malloc liberal (os : list (op K V)) n,
  eq_decides keq -> allocator malloc ->
  exists i h out l, exec_all K V keq malloc liberal empty_idx os (heap0 K V) = Some ((i, out), h) /\
    l = fst (srun K V keq [] os) /\ NoDup (map fst l) /\ length (im i) = length l /\
    (exists f, iterate K V i (repeat true (length l + n)) h = Some (f, h) /\ map fst f = map Some l ++ repeat None n) /\
    (exists b, iterate K V i (repeat false (length l + n)) h = Some (b, h) /\ map fst b = map Some (rev l) ++ repeat None n) /\
    (exists u, unordered K V i h = Some (u, h) /\ Permutation u l).
Proof.
  intros K V keq malloc liberal os n HK HM.
  destruct (exec_all_ok K V keq HK malloc HM liberal os empty_idx (heap0 K V) []) as (i & h & E & R); [apply Rep_empty; reflexivity|].
  set (l := fst (srun K V keq [] os)) in *. exists i, h, (snd (srun K V keq [] os)), l. split; [exact E|]. split; [reflexivity|].
  split; [apply srun_keys; [exact HK|constructor]|]. split.
  { destruct R as (as_ & fr & R & P & _). rewrite (Permutation_length P). exact (data_len _ _ _ _ _ (rp_data _ _ _ _ _ _ _ _ _ _ R)). }
  split; [|split].
  - eexists. split; [apply (iterate_ok K V liberal i h l _ R)|apply pass_front].
  - eexists. split; [apply (iterate_ok K V liberal i h l _ R)|apply pass_back].
  - exact (unordered_ok K V liberal i h l R).
Qed.

(** The order is that of the last write: whatever a pass over the map gave before, after a write to a key it
    gives the other pairs in the same order and then the pair written. *)
Lemma srun_snoc K V (keq : K -> K -> bool) os o : forall l : list (K * V),
  fst (srun K V keq l (os ++ [o])) = fst (sstep K V keq (fst (srun K V keq l os)) o).
Proof. induction os as [|a os IH]; intros l; cbn [app srun fst]; [reflexivity|apply IH]. Qed.

Theorem C37_order : forall K V (keq : K -> K -> bool) malloc liberal (os : list (op K V)) k v,
  eq_decides keq -> allocator malloc ->
  exists i h out i' h' out' l f f',
    exec_all K V keq malloc liberal empty_idx os (heap0 K V) = Some ((i, out), h) /\
    iterate K V i (repeat true (length (im i))) h = Some (f, h) /\ map fst f = map Some l /\
    exec_all K V keq malloc liberal empty_idx (os ++ [OUpsert K V k v]) (heap0 K V) = Some ((i', out'), h') /\
    iterate K V i' (repeat true (length (im i'))) h' = Some (f', h') /\
    map fst f' = map Some (filter (fun x => negb (keq (fst x) k)) l ++ [(k, v)]).
Proof.
  intros K V keq malloc liberal os k v HK HM.
  destruct (C37_iteration K V keq malloc liberal os 0 HK HM) as (i & h & out & l & E & -> & _ & LN & (f & F & FM) & _).
  destruct (C37_iteration K V keq malloc liberal (os ++ [OUpsert K V k v]) 0 HK HM) as (i' & h' & out' & l' & E' & -> & _ & LN' & (f' & F' & FM') & _).
  cbn [repeat] in FM, FM'. rewrite app_nil_r in FM, FM'. rewrite Nat.add_0_r in F, F'. rewrite <- LN in F. rewrite <- LN' in F'.
  exists i, h, out, i', h', out', (fst (srun K V keq [] os)), f, f'. repeat (split; [assumption|]). rewrite FM', srun_snoc. reflexivity.
Qed.

(** * Memory is given back *)
Theorem C37_no_leak : forall K V (keq : K -> K -> bool) malloc liberal (os : list (op K V)),
  eq_decides keq -> allocator malloc ->
  exists i out h h', exec_all K V keq malloc liberal empty_idx os (heap0 K V) = Some ((i, out), h) /\
    drop_idx K V liberal i h = Some (tt, h') /\ live K V h' = [].
Proof.
  intros K V keq malloc liberal os HK HM.
  destruct (exec_all_ok K V keq HK malloc HM liberal os empty_idx (heap0 K V) []) as (i & h & E & R); [apply Rep_empty; reflexivity|].
  destruct (drop_ok K V liberal i h _ R) as (h' & E' & L). exists i, (snd (srun K V keq [] os)), h, h'. auto.
Qed.

(** * The iterator that takes the map apart *)
(** Whatever the history, if the map is not empty the first step of the iterator reads memory it has just
    given back (the same step is taken when the iterator is dropped). *)
Theorem C37_owned_iteration : forall K V (keq : K -> K -> bool) malloc liberal (os : list (op K V)),
  eq_decides keq -> allocator malloc -> fst (srun K V keq [] os) <> [] ->
  exists i out h t h', exec_all K V keq malloc liberal empty_idx os (heap0 K V) = Some ((i, out), h) /\
    own_new K V liberal i h = Some (t, h') /\ own_next K V t h' = None.
Proof.
  intros K V keq malloc liberal os HK HM NE.
  destruct (exec_all_ok K V keq HK malloc HM liberal os empty_idx (heap0 K V) []) as (i & h & E & R); [apply Rep_empty; reflexivity|].
  destruct (own_bad K V liberal i h _ R NE) as (t & h' & E1 & E2). exists i, (snd (srun K V keq [] os)), h, t, h'. auto.
Qed.

Theorem C37_refuted : exists (os : list (op nat nat)) i out h t h',
  exec_all nat nat Nat.eqb first_fit true empty_idx os (heap0 nat nat) = Some ((i, out), h) /\
  own_new nat nat true i h = Some (t, h') /\ own_next nat nat t h' = None.
Proof. exists [OInsert _ _ 7 70]. do 5 eexists. vm_compute. split; [reflexivity|]. split; reflexivity. Qed.

(** * Comparison of two maps *)
(** [==] walks over the pairs of the one and looks every key up in the other. *)
Definition agrees K V (keq : K -> K -> bool) (veq : V -> V -> bool) (m : list (K * V)) (x : K * V) : Prop :=
  exists v, sget K V keq (fst x) m = Some v /\ veq v (snd x) = true.
Theorem C37_eq : forall K V (keq : K -> K -> bool) malloc liberal (os : list (op K V)) veq (l : list (K * V)),
  eq_decides keq -> allocator malloc ->
  let m := fst (srun K V keq [] os) in
  exists i out h r, exec_all K V keq malloc liberal empty_idx os (heap0 K V) = Some ((i, out), h) /\
    eq_loop K V keq veq i l h = Some (r, h) /\
    (r = Some true <-> Forall (agrees K V keq veq m) l) /\
    (r = None <-> exists l1 x l2, l = l1 ++ x :: l2 /\ Forall (agrees K V keq veq m) l1 /\ ~ In (fst x) (map fst m)).
Proof.
  intros K V keq malloc liberal os veq l HK HM m.
  destruct (exec_all_ok K V keq HK malloc HM liberal os empty_idx (heap0 K V) []) as (i & h & E & R); [apply Rep_empty; reflexivity|]. fold m in R.
  assert (X : exists r, eq_loop K V keq veq i l h = Some (r, h) /\ (r = Some true <-> Forall (agrees K V keq veq m) l) /\
    (r = None <-> exists l1 x l2, l = l1 ++ x :: l2 /\ Forall (agrees K V keq veq m) l1 /\ ~ In (fst x) (map fst m))).
  { clear E. induction l as [|(k, v) l IH]; cbn [eq_loop].
    - exists (Some true). split; [reflexivity|]. split; [split; [constructor|reflexivity]|]. split; [discriminate|].
      intros (l1 & x & l2 & Q & _). destruct l1; discriminate Q.
    - rewrite (bs _ _ _ _ _ _ _ (get_ok K V keq HK liberal i h m k R)). destruct (sget K V keq k m) as [v'|] eqn:G.
      + assert (KI : In k (map fst m)).
        { unfold sget in G. destruct (find _ m) as [(k', w)|] eqn:F; [|discriminate G]. apply find_some in F. destruct F as (I & Q). cbn [fst] in Q. apply HK in Q.
          subst k'. apply in_map_iff. exists (k, w). auto. }
        destruct (veq v' v) eqn:VE.
        * destruct IH as (r & E & T & N). exists r. split; [exact E|]. assert (A : agrees K V keq veq m (k, v)) by (exists v'; auto). split.
          -- rewrite T. split; [intros F; constructor; assumption|intros F; inversion F; assumption].
          -- rewrite N. split.
             ++ intros (l1 & x & l2 & -> & F & NI). exists ((k, v) :: l1), x, l2. split; [reflexivity|]. split; [constructor; assumption|exact NI].
             ++ intros ([|y l1] & x & l2 & Q & F & NI); cbn [app] in Q; injection Q as Q1 Q2.
                ** subst x. contradiction.
                ** exists l1, x, l2. split; [exact Q2|]. inversion F. auto.
        * exists (Some false). split; [reflexivity|]. split.
          -- split; [discriminate|]. intros F. inversion F as [|? ? (w & W1 & W2) _]; subst. cbn [fst snd] in *. congruence.
          -- split; [discriminate|]. intros ([|y l1] & x & l2 & Q & F & NI); cbn [app] in Q; injection Q as Q1 Q2.
             ++ subst x. contradiction.
             ++ subst y. inversion F as [|? ? (w & W1 & W2) _]; subst. cbn [fst snd] in *. congruence.
      + exists None. split; [reflexivity|]. split.
        * split; [discriminate|]. intros F. inversion F as [|? ? (w & W1 & W2) _]; subst. cbn [fst snd] in *. congruence.
        * split; [intros _|reflexivity]. exists [], (k, v), l. split; [reflexivity|]. split; [constructor|]. cbn [fst]. intros I.
          apply in_map_iff in I. destruct I as (x & Q & I). unfold sget in G. destruct (find _ m) as [(k', w)|] eqn:F; [discriminate G|].
          pose proof (find_none _ _ F x I) as NN. cbn beta in NN. rewrite Q, (proj2 (HK k k) eq_refl) in NN. discriminate NN. }
  destruct X as (r & E1 & T & N). exists i, (snd (srun K V keq [] os)), h, r. auto.
Qed.

(** so [==] does not look at the order, and two maps of the same size with different keys do not compare as
    different: the comparison panics *)
Theorem C37_eq_refuted : exists (os : list (op nat nat)) (l : list (nat * nat)) i out h,
  exec_all nat nat Nat.eqb first_fit false empty_idx os (heap0 nat nat) = Some ((i, out), h) /\
  length l = length (im i) /\ ~ Permutation l (fst (srun nat nat Nat.eqb [] os)) /\ eq_loop nat nat Nat.eqb Nat.eqb i l h = Some (None, h).
Proof.
  exists [OInsert _ _ 1 10], [(2, 10)]. do 3 eexists. split; [vm_compute; reflexivity|]. split; [reflexivity|]. split; [|vm_compute; reflexivity].
  intros P. apply Permutation_length_1 in P. discriminate P.
Qed.

(** * Cases *)
Lemma nat_eq : eq_decides Nat.eqb. Proof. intros a b. apply Nat.eqb_eq. Qed.

(** a history with reuse of nodes: insert three, remove the middle one, insert a fourth in its block, update the
    first (it becomes the last), and read everything from both ends *)
Definition hist : list (op nat nat) :=
  [OInsert _ _ 1 10; OInsert _ _ 2 20; OInsert _ _ 3 30; ORemove _ _ 2; OInsert _ _ 4 40; OInsert _ _ 1 0; OUpdate _ _ 1 11;
   OPut _ _ 3 31; OUpsert _ _ 5 50; OGet _ _ 2; OGet _ _ 3; OLen _ _; OIter _ _ [true; false; true; false; true; false]; OCompact _ _; ORemove _ _ 4;
   OClear _ _; OLen _ _; OInsert _ _ 9 90; OIter _ _ [false; true]].
Example hist_liberal : exists i h, exec_all nat nat Nat.eqb first_fit true empty_idx hist (heap0 nat nat) =
  Some ((i, [RBool _ _ true; RBool _ _ true; RBool _ _ true; RVal _ _ (Some 20); RBool _ _ true; RBool _ _ false; RVal _ _ (Some 10);
             RBool _ _ true; RVal _ _ None; RVal _ _ None; RVal _ _ (Some 31); RNum _ _ 4;
             RIter _ _ [(Some (3, 31), 3); (Some (5, 50), 2); (Some (4, 40), 1); (Some (1, 11), 0); (None, 0); (None, 0)];
             RUnit _ _; RVal _ _ (Some 40); RUnit _ _; RNum _ _ 0; RBool _ _ true; RIter _ _ [(Some (9, 90), 0); (None, 0)]]), h).
Proof. eexists _, _. vm_compute. reflexivity. Qed.
Example hist_spec : eq_decides Nat.eqb /\ allocator first_fit /\ fst (srun nat nat Nat.eqb [] (firstn 9 hist)) = [(3, 31); (4, 40); (1, 11); (5, 50)].
Proof. split; [exact nat_eq|]. split; [exact first_fit_ok|reflexivity]. Qed.
(** the fourth pair reuses the block of the second *)
Example hist_reuse : exists i h out, exec_all nat nat Nat.eqb first_fit true empty_idx (firstn 5 hist) (heap0 nat nat) = Some ((i, out), h) /\ length (live _ _ h) = 4.
Proof. do 3 eexists. vm_compute. split; reflexivity. Qed.
Example owned_case : fst (srun nat nat Nat.eqb [] (firstn 5 hist)) <> [].
Proof. vm_compute. discriminate. Qed.
Example eq_case : Forall (agrees nat nat Nat.eqb Nat.eqb (fst (srun nat nat Nat.eqb [] (firstn 9 hist)))) [(5, 50); (1, 11); (4, 40); (3, 31)] /\
  ~ In 2 (map fst (fst (srun nat nat Nat.eqb [] (firstn 9 hist)))).
Proof.
  split.
  - repeat (constructor; [eexists; split; vm_compute; reflexivity|]). constructor.
  - vm_compute. intuition discriminate.
Qed.

Print Assumptions C37_partial.
Print Assumptions C37_memory_unobservable.
Print Assumptions C37_iteration.
Print Assumptions C37_order.
Print Assumptions C37_no_leak.
Print Assumptions C37_owned_iteration.
Print Assumptions C37_refuted.
Print Assumptions C37_eq.
Print Assumptions C37_eq_refuted.
