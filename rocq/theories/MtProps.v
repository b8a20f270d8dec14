(** C38, C39: the row index used by one thread. *)
From Coq Require Import List Arith NArith Bool Lia Permutation.
From Verif Require Import MtModel MtSpec MtProofs.
Import ListNotations.

Definition decides {A} (f : A -> A -> bool) : Prop := forall a b, f a b = true <-> a = b.

(** Whatever the operations, keys, values and the hash function: no panic, every answer (old values, lookups,
    sizes) is that of the map. *)
Theorem C38_map : forall K V (keq : K -> K -> bool) (hash : K -> N) (os : list (op K V)), decides keq ->
  exists s, exec_all K V keq hash (idx_new K V) os = Some (s, snd (srun K V keq [] os)).
Proof.
  intros K V keq hash os HK. destruct (exec_all_ok K V keq HK hash os (idx_new K V) [] (rep_new K V hash)) as (s & E & _). exists s. exact E.
Qed.

(** The hash function (seeded at random when the index is made) cannot be seen in the answers. *)
Theorem C38_hash_unobservable : forall K V (keq : K -> K -> bool) (h1 h2 : K -> N) (os : list (op K V)), decides keq ->
  option_map snd (exec_all K V keq h1 (idx_new K V) os) = option_map snd (exec_all K V keq h2 (idx_new K V) os).
Proof. intros K V keq h1 h2 os HK. destruct (C38_map K V keq h1 os HK) as (s & ->). destruct (C38_map K V keq h2 os HK) as (s' & ->). reflexivity. Qed.

(** ** In terms of the last write *)
Section Last.
Variables K V : Type.
Variable keq : K -> K -> bool.
(** the value of key [k] after a history: [None] if there is none *)
Definition eff (k : K) (o : op K V) (cur : option V) : option V :=
  match o with
  | OInsert _ _ e => if keq k (fst e) then match cur with Some v => Some v | None => Some (snd e) end else cur
  | OUpsert _ _ e => if keq k (fst e) then Some (snd e) else cur
  | OUpdate _ _ e | OUpdateRet _ _ e => if keq k (fst e) then match cur with Some _ => Some (snd e) | None => None end else cur
  | ODelete _ _ k' | ODeleteRet _ _ k' | ODeleteEntry _ _ k' => if keq k k' then None else cur
  | _ => cur
  end.
Definition last_value (k : K) (os : list (op K V)) : option V := fold_left (fun c o => eff k o c) os None.
End Last.

Section LastProof.
Variables K V : Type.
Variable keq : K -> K -> bool.
Hypothesis HK : decides keq.
Notation val k l := (option_map snd (sfind K V keq k l)).
Lemma find_del k k' (l : list (K * V)) : sfind K V keq k (sdel K V keq k' l) = if keq k k' then None else sfind K V keq k l.
Proof.
  destruct (keq k k') eqn:E.
  - apply HK in E. subst k'. apply (sfind_none K V keq HK). apply (sdel_keys K V keq HK).
  - unfold sfind, sdel. induction l as [|e l IH]; [reflexivity|]. cbn. destruct (keq k' (fst e)) eqn:E2; cbn; [|destruct (keq k (fst e)); [reflexivity|exact IH]].
    rewrite IH. apply HK in E2. subst k'. rewrite E. reflexivity.
Qed.
Lemma val_step k o (l : list (K * V)) : val k (fst (sstep K V keq l o)) = eff K V keq k o (val k l).
Proof.
  assert (PUT : forall e, val k (sput K V keq e l) = if keq k (fst e) then Some (snd e) else val k l).
  { intros e. unfold sput. pose proof (find_del k (fst e) l) as F. unfold sfind in *. cbn [find]. destruct (keq k (fst e)); [reflexivity|]. rewrite F. reflexivity. }
  assert (DEL : forall k', val k (sdel K V keq k' l) = if keq k k' then None else val k l) by (intros k'; rewrite find_del; destruct (keq k k'); reflexivity).
  assert (SAME : forall e : K * V, keq k (fst e) = true -> sfind K V keq (fst e) l = sfind K V keq k l) by (intros e E; apply (proj1 (HK _ _)) in E; rewrite <- E; reflexivity).
  destruct o as [e|e|e|e|k'|k'|k'|k'|k'|k'|]; cbn [sstep eff fst]; try reflexivity; try apply PUT; try apply DEL;
    destruct (sfind K V keq (fst e) l) as [x|] eqn:F; cbn [fst]; rewrite ?PUT; destruct (keq k (fst e)) eqn:E; try reflexivity; rewrite <- (SAME e E), F; reflexivity.
Qed.
Lemma val_run k os : forall l, val k (fst (srun K V keq l os)) = fold_left (fun c o => eff K V keq k o c) os (val k l).
Proof.
  induction os as [|o os IH]; intros l; [reflexivity|]. cbn [srun fold_left]. rewrite <- val_step. destruct (sstep K V keq l o) as (l1, x). cbn [fst].
  specialize (IH l1). destruct (srun K V keq l1 os) as (l2, xs). exact IH.
Qed.
End LastProof.

(** After any history a lookup answers the last value written to the key, or nothing. *)
Theorem C38_last_write : forall K V (keq : K -> K -> bool) (hash : K -> N) (os : list (op K V)) k, decides keq ->
  exists s, option_map fst (exec_all K V keq hash (idx_new K V) os) = Some s /\
            exec K V keq hash s (OGet K V k) = Some (s, RVal K V (last_value K V keq k os)).
Proof.
  intros K V keq hash os k HK. destruct (exec_all_ok K V keq HK hash os (idx_new K V) [] (rep_new K V hash)) as (s & E & R). exists s. rewrite E. split; [reflexivity|].
  cbn [exec]. rewrite (rep_lookup K V keq HK hash s _ k R). cbn [option_map]. rewrite (val_run K V keq HK k os []). reflexivity.
Qed.

(** The reported size is the number of keys (the counter has 64 bits). *)
Theorem C38_size : forall K V (keq : K -> K -> bool) (hash : K -> N) (os : list (op K V)), decides keq ->
  exists s ks, option_map fst (exec_all K V keq hash (idx_new K V) os) = Some s /\ NoDup ks /\
               (forall k, In k ks <-> last_value K V keq k os <> None) /\ len K V s = (N.of_nat (length ks) mod 2 ^ 64)%N.
Proof.
  intros K V keq hash os HK. destruct (exec_all_ok K V keq HK hash os (idx_new K V) [] (rep_new K V hash)) as (s & E & R). exists s, (map fst (fst (srun K V keq [] os))). rewrite E. split; [reflexivity|].
  split; [exact (rep_nodup _ _ _ _ _ R)|]. split; [|rewrite map_length; exact (r_len _ _ _ _ _ R)].
  intros k. pose proof (val_run K V keq HK k os []) as F. cbn in F. unfold last_value. rewrite <- F. pose proof (sfind_none K V keq HK k (fst (srun K V keq [] os))) as S.
  destruct (sfind K V keq k (fst (srun K V keq [] os))) as [e|] eqn:Q; cbn.
  - split; [discriminate|]. intros _. apply (sfind_some K V keq HK) in Q. destruct Q as (I & <-). apply in_map. exact I.
  - split; [intros I; exfalso; apply (proj1 S eq_refl I)|intros X; congruence].
Qed.

(** ** Full scans *)
(** After any history a scan answers every stored pair exactly once, without overflowing its stack. *)
Theorem C39_scan : forall K V (keq : K -> K -> bool) (hash : K -> N) (os : list (op K V)), decides keq ->
  exists s n l, option_map fst (exec_all K V keq hash (idx_new K V) os) = Some s /\
    (forall m, length l < m -> scan K V m n (iter_new K V s) = Some l) /\
    NoDup (map fst l) /\ forall k v, In (k, v) l <-> last_value K V keq k os = Some v.
Proof.
  intros K V keq hash os HK. destruct (exec_all_ok K V keq HK hash os (idx_new K V) [] (rep_new K V hash)) as (s & E & R).
  pose proof (scan_ok K V hash (els K V 16 (root K V s))) as SC.
  assert (W : wst K V hash 16 (iter_new K V s)) by (split; [exists 0%N, any; exact (r_wf _ _ _ _ _ R)|reflexivity]).
  assert (T : todo K V 16 (iter_new K V s) = els K V 16 (root K V s)) by (cbn [todo iter_new]; rewrite app_nil_r; destruct (root K V s) as [|d|b]; reflexivity).
  exists s, (S (costs K V 16 (iter_new K V s))), (els K V 16 (root K V s)). rewrite E. split; [reflexivity|]. split; [intros m M; exact (SC m _ 16 _ W T (Nat.lt_succ_diag_r _) M)|].
  pose proof (els_nodup K V hash 16 0%N any _ (r_wf _ _ _ _ _ R)) as D. split; [exact D|].
  intros k v. pose proof (val_run K V keq HK k os []) as F. cbn in F. unfold last_value. rewrite <- F. rewrite <- (rep_find K V keq HK hash s _ k R). split.
  - intros I. pose proof (sfind_in K V keq HK _ _ D I) as Q. cbn [fst] in Q. rewrite Q. reflexivity.
  - intros Q. destruct (sfind K V keq k (els K V 16 (root K V s))) as [(k', v')|] eqn:Q2; [|discriminate Q]. apply (sfind_some K V keq HK) in Q2. cbn in Q2, Q. destruct Q2 as (I & ->). injection Q as ->. exact I.
Qed.

(** * Cases *)
(** all keys have the same hash: the last level holds several in one leaf, 17 places of the stack are used *)
Definition h0 (k : nat) : N := 0.
Definition ops1 : list (op nat nat) :=
  [OInsert nat nat (1, 10); OInsert nat nat (2, 20); OInsert nat nat (3, 30); OInsert nat nat (2, 99); OUpdateRet nat nat (1, 11); OUpdate nat nat (7, 0); OUpsert nat nat (4, 40);
   ODeleteRet nat nat 2; OGet nat nat 1; OGet nat nat 2; OContains nat nat 3; OLen nat nat].
Example C38_case : option_map snd (exec_all nat nat Nat.eqb h0 (idx_new nat nat) ops1) =
  Some [RBool _ _ true; RBool _ _ true; RBool _ _ true; RBool _ _ false; RVal _ _ (Some 10); RBool _ _ false; RUnit _ _; RVal _ _ (Some 20); RVal _ _ (Some 11); RVal _ _ None; RBool _ _ true; RLen nat nat 3%N].
Proof. vm_compute. reflexivity. Qed.
Example C38_hypothesis : decides Nat.eqb.
Proof. intros a b. apply Nat.eqb_eq. Qed.
(** the tree of colliding keys has its full height, and is taken down again when one key is left *)
Fixpoint height (n : nat) (t : tree nat nat) : nat :=
  match n, t with S n, TBranch b => S (fold_left (fun a c => Nat.max a (height n c)) b 0) | _, _ => 0 end.
Example C38_case2 :
  option_map (fun x => height 20 (root nat nat (fst x))) (exec_all nat nat Nat.eqb h0 (idx_new nat nat) ops1) = Some 16 /\
  option_map (fun x => root nat nat (fst x)) (exec_all nat nat Nat.eqb h0 (idx_new nat nat) (ops1 ++ [ODelete nat nat 1; ODelete nat nat 3])) = Some (TLeaf [(4, 40)]).
Proof. vm_compute. split; reflexivity. Qed.
Example C39_case : match exec_all nat nat Nat.eqb h0 (idx_new nat nat) ops1 with
  | Some (s, _) => scan nat nat 4 1000 (iter_new nat nat s) = Some [(3, 30); (1, 11); (4, 40)]
  | None => False end.
Proof. vm_compute. reflexivity. Qed.
(** different hashes *)
Definition h1 (k : nat) : N := (N.of_nat k * 0x9E3779B97F4A7C15) mod 2 ^ 64.
Example C39_case2 : match exec_all nat nat Nat.eqb h1 (idx_new nat nat) (map (fun k => OInsert nat nat (k, k)) (seq 0 40) ++ [ODelete nat nat 7]) with
  | Some (s, _) => option_map (fun l => length l) (scan nat nat 50 2000 (iter_new nat nat s)) = Some 39
  | None => False end.
Proof. vm_compute. reflexivity. Qed.

Print Assumptions C38_map.
Print Assumptions C38_hash_unobservable.
Print Assumptions C38_last_write.
Print Assumptions C38_size.
Print Assumptions C39_scan.
