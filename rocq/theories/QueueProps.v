(** C40, C63, C64: the change queue. *)
From Coq Require Import List Arith Bool Lia Permutation.
From Verif Require Import QueueModel QueueSpec QueueProofs QueueLive.
Import ListNotations.

Notation dead := (fun _ : nat => 0).

(** what is stored: the items of the nodes after the head *)
Fixpoint walk {A} (n : nat) (s : st A) (a : nat) : list A :=
  match n with
  | 0 => []
  | S n => if nxt A s a =? 0 then [] else match dat A s (nxt A s a) with Some v => v :: walk n s (nxt A s a) | None => [] end
  end.
Definition contents {A} (s : st A) : list A := walk (length (live A s)) s (head A s).

(** the arguments of the calls of enqueue, and the items returned by dequeue *)
Fixpoint sent {A} (e : list (event A)) : list A :=
  match e with [] => [] | EInv _ _ (OEnq _ v) :: r => v :: sent r | _ :: r => sent r end.
Fixpoint received {A} (e : list (event A)) : list A :=
  match e with [] => [] | ERet _ _ (RItem _ (Some v)) :: r => v :: received r | _ :: r => received r end.
Definition quiet {A} (s : st A) : Prop := forall t, pcs A s t = PIdle A.

Lemma walk_chain A (s : st A) : forall c q n, linked (nxt A s) c -> ~ In 0 c -> length c <= n ->
  Forall2 (fun a v => dat A s a = Some v) (tl c) q -> walk n s (hd 0 c) = q.
Proof.
  intros c. induction c as [|a [|b c] IH]; intros q n L Z N F; [destruct L| |].
  - cbn in *. inversion F; subst. destruct n; [lia|]. cbn. rewrite L. reflexivity.
  - destruct L as (E & L). cbn [tl hd] in *. inversion F as [|? v ? q' Db Fq]; subst. destruct n as [|n]; [cbn in N; lia|]. cbn [walk].
    rewrite (proj2 (Nat.eqb_neq _ 0)) by (intros Q; apply Z; right; left; exact Q). rewrite Db. f_equal.
    apply IH; [exact L|intros Q; apply Z; right; exact Q|cbn in *; lia|exact Fq].
Qed.
Lemma contents_inv A s c th q : Inv A s c th q -> contents s = q.
Proof.
  intros I. unfold contents. rewrite <- (v_head _ _ _ _ _ I). apply walk_chain.
  - exact (v_link _ _ _ _ _ I).
  - intros Z. apply (v_zero _ _ _ _ _ I). exact (chain_live _ _ _ _ _ _ I Z).
  - rewrite (Permutation_length (v_perm _ _ _ _ _ I)), app_length. lia.
  - exact (v_items _ _ _ _ _ I).
Qed.

Lemma reach_inv A sch s e : run A (init A) sch = Next A s e ->
  exists c th q f, asteps A (ainit A) e f (MkA A q th) /\ Inv A s c th q.
Proof. intros R. pose proof (sim_sched A sch _ _ _ _ (inv_init A)) as S. rewrite R in S. exact S. Qed.

Lemma fifo A a e f a' : asteps A a e f a' -> deqs A f ++ aq A a' = aq A a ++ enqs A f.
Proof.
  assert (Happ : forall f g : list (effect A), deqs A (f ++ g) = deqs A f ++ deqs A g /\ enqs A (f ++ g) = enqs A f ++ enqs A g).
  { induction f0 as [|x f0 IH]; intros g; [auto|]. destruct (IH g) as (E1 & E2). destruct x; cbn; rewrite E1, E2; auto. }
  intros S. induction S as [a|a e f a1 e' f' a2 S1 S IH].
  - cbn. rewrite app_nil_r. reflexivity.
  - destruct (Happ f f') as (-> & ->). rewrite <- app_assoc, IH. destruct S1; cbn; rewrite <- ?app_assoc; reflexivity.
Qed.

(** * C40 *)
(** Whatever the threads do, in whatever order, wherever blocks are allocated and whenever they are freed: no
    freed block is read, no item is taken twice, no block is freed twice. *)
Theorem C40_no_undefined_behaviour : forall A sch, run A (init A) sch <> UB A.
Proof. intros A sch R. pose proof (sim_sched A sch _ _ _ _ (inv_init A)) as S. rewrite R in S. exact S. Qed.

(** Every execution is one of the queue whose operations take effect at once between call and return; what was
    dequeued and then what is stored is what was enqueued, in the order the operations took effect. *)
Theorem C40_linearizable : forall A sch s e, run A (init A) sch = Next A s e ->
  exists f th, asteps A (ainit A) e f (MkA A (contents s) th) /\ deqs A f ++ contents s = enqs A f.
Proof.
  intros A sch s e R. destruct (reach_inv A sch s e R) as (c & th & q & f & S & I). rewrite (contents_inv _ _ _ _ _ I).
  exists f, th. split; [exact S|]. exact (fifo _ _ _ _ _ S).
Qed.

(** ** Nothing is lost or duplicated, in terms of calls and answers alone *)
Section Count.
Variable A : Type.
Definition pv (x : athread A) : list A := match x with APending _ (OEnq _ v) => [v] | _ => [] end.
Definition rv (x : athread A) : list A := match x with AReady _ (RItem _ (Some v)) => [v] | _ => [] end.
Definition thread_of (e : event A) : nat := match e with EInv _ t _ | ERet _ t _ => t end.

Lemma flat_upd {B} (g : B -> list A) (th : nat -> B) t x : forall l, NoDup l -> In t l ->
  Permutation (flat_map (fun u => g (fup th t x u)) l ++ g (th t)) (flat_map (fun u => g (th u)) l ++ g x).
Proof.
  induction l as [|u l IH]; intros D I; [destruct I|]. inversion D as [|? ? N D']; subst. cbn [flat_map]. destruct (Nat.eq_dec u t) as [E|E].
  - subst u. rewrite fup_same. assert (X : flat_map (fun u => g (fup th t x u)) l = flat_map (fun u => g (th u)) l).
    { clear - N. induction l as [|u l IH]; [reflexivity|]. cbn [flat_map]. rewrite fup_other by (intros ->; apply N; left; reflexivity). f_equal. apply IH. intros I. apply N. right. exact I. }
    rewrite X. eapply Permutation_trans; [apply Permutation_app_comm|]. rewrite <- app_assoc. apply Permutation_app_head. apply Permutation_app_comm.
  - destruct I as [I|I]; [contradiction|]. rewrite fup_other by exact E. rewrite <- !app_assoc. apply Permutation_app_head. exact (IH D' I).
Qed.

Definition pvs (a : ast A) (l : list nat) : list A := flat_map (fun u => pv (ath A a u)) l.
Definition rvs (a : ast A) (l : list nat) : list A := flat_map (fun u => rv (ath A a u)) l.

Lemma sent_app (e e' : list (event A)) : sent (e ++ e') = sent e ++ sent e'.
Proof. induction e as [|x e IH]; [reflexivity|]. destruct x as [t [v|]|t r]; cbn; rewrite IH; reflexivity. Qed.
Lemma received_app (e e' : list (event A)) : received (e ++ e') = received e ++ received e'.
Proof. induction e as [|x e IH]; [reflexivity|]. destruct x as [t o|t [|[v|]]]; cbn; rewrite IH; reflexivity. Qed.
Lemma enqs_app (f g : list (effect A)) : enqs A (f ++ g) = enqs A f ++ enqs A g.
Proof. induction f as [|x f IH]; [reflexivity|]. destruct x; cbn; rewrite IH; reflexivity. Qed.
Lemma deqs_app (f g : list (effect A)) : deqs A (f ++ g) = deqs A f ++ deqs A g.
Proof. induction f as [|x f IH]; [reflexivity|]. destruct x; cbn; rewrite IH; reflexivity. Qed.

Lemma conserve1 a e f a' l : astep A a e f a' -> NoDup l -> (forall u, ath A a u <> AIdle A -> In u l) -> (forall x, In x e -> In (thread_of x) l) ->
  (forall u, ath A a' u <> AIdle A -> In u l) /\
  Permutation (sent e ++ pvs a l) (enqs A f ++ pvs a' l) /\ Permutation (deqs A f ++ rvs a l) (received e ++ rvs a' l).
Proof.
  intros S D CV CE.
  assert (K : forall th t x, In t l -> (forall u, th u <> AIdle A -> In u l) -> forall u, fup th t x u <> AIdle A -> In u l).
  { intros th t x I C u N. destruct (Nat.eq_dec u t) as [->|E]; [exact I|]. rewrite fup_other in N by exact E. apply C. exact N. }
  unfold pvs, rvs. destruct S as [q th t o E|q th t v E|q th t v E|th t E|q th t r E]; cbn [ath] in *;
    (assert (IT : In t l) by (first [apply (CE _ (or_introl eq_refl))|apply CV; rewrite E; discriminate]));
    (split; [apply K; assumption|]);
    match goal with |- context [fup th t ?x] => pose proof (flat_upd pv th t x l D IT) as F1; pose proof (flat_upd rv th t x l D IT) as F2 end;
    rewrite E in F1, F2; cbn [pv rv] in F1, F2; repeat rewrite app_nil_r in F1; repeat rewrite app_nil_r in F2.
  - destruct o as [v|]; cbn [sent received enqs deqs app]; split.
    + rewrite F1. apply Permutation_cons_append.
    + symmetry. exact F2.
    + cbn [pv] in F1. rewrite app_nil_r in F1. symmetry. exact F1.
    + symmetry. exact F2.
  - cbn [sent received enqs deqs app]. split; [|symmetry; exact F2]. rewrite <- F1. symmetry. apply Permutation_cons_append.
  - cbn [sent received enqs deqs app]. split; [symmetry; exact F1|]. rewrite F2. apply Permutation_cons_append.
  - cbn [sent received enqs deqs app]. split; symmetry; assumption.
  - destruct r as [|[v|]]; cbn [sent received enqs deqs app] in *; (split; [symmetry; exact F1|]); cbn [rv] in F2; rewrite ?app_nil_r in F2.
    + symmetry; exact F2.
    + rewrite <- F2. symmetry. apply Permutation_cons_append.
    + symmetry; exact F2.
Qed.
Lemma conserve a e f a' l : asteps A a e f a' -> NoDup l -> (forall u, ath A a u <> AIdle A -> In u l) -> (forall x, In x e -> In (thread_of x) l) ->
  Permutation (sent e ++ pvs a l) (enqs A f ++ pvs a' l) /\ Permutation (deqs A f ++ rvs a l) (received e ++ rvs a' l).
Proof.
  intros S. induction S as [a|a e f a1 e' f' a2 S1 S IH]; intros D CV CE; [split; apply Permutation_refl|].
  destruct (conserve1 _ _ _ _ l S1 D CV) as (CV1 & P1 & P2); [intros x X; apply CE; apply in_or_app; left; exact X|].
  destruct (IH D CV1) as (Q1 & Q2); [intros x X; apply CE; apply in_or_app; right; exact X|].
  rewrite sent_app, received_app, enqs_app, deqs_app. split.
  - rewrite <- app_assoc. rewrite <- (app_assoc (enqs A f)), <- Q1, !app_assoc. rewrite (Permutation_app_comm (sent e)), <- app_assoc, P1, !app_assoc.
    apply Permutation_app_tail. apply Permutation_app_comm.
  - rewrite <- (app_assoc (received e)), <- Q2, <- app_assoc. rewrite (Permutation_app_comm (deqs A f')), app_assoc, P2.
    rewrite <- app_assoc. apply Permutation_app_head. apply Permutation_app_comm.
Qed.
End Count.

(** At every moment the items sent are those received, those stored, and those of operations under way. *)
Theorem C40_conservation : forall A sch s e, run A (init A) sch = Next A s e ->
  exists inflight, Permutation (sent e) (received e ++ contents s ++ inflight) /\ (quiet s -> inflight = []).
Proof.
  intros A sch s e R. destruct (reach_inv A sch s e R) as (c & th & q & f & S & I). rewrite (contents_inv _ _ _ _ _ I).
  set (l := nodup Nat.eq_dec (map (thread_of A) e)).
  destruct (conserve A _ _ _ _ l S) as (P1 & P2).
  - apply NoDup_nodup.
  - intros u N. exfalso. apply N. reflexivity.
  - intros x X. apply nodup_In. apply in_map. exact X.
  - assert (Z : forall g : athread A -> list A, g (AIdle A) = [] -> flat_map (fun u => g (ath A (ainit A) u)) l = []).
    { intros g G. cbn [ath ainit]. rewrite G. clear. induction l as [|u l' IH]; [reflexivity|exact IH]. }
    unfold pvs at 1 in P1. unfold rvs at 1 in P2. rewrite (Z (@pv A)), app_nil_r in P1 by reflexivity. rewrite (Z (@rv A)), app_nil_r in P2 by reflexivity.
    pose proof (fifo _ _ _ _ _ S) as F. cbn [aq ainit app] in F.
    exists (rvs A (MkA A q th) l ++ pvs A (MkA A q th) l). split.
    + rewrite P1, <- F, P2, <- !app_assoc. apply Permutation_app_head. rewrite !app_assoc. apply Permutation_app_tail. apply Permutation_app_comm.
    + intros Q. assert (T : forall u, th u = AIdle A) by (intros u; pose proof (v_th _ _ _ _ _ I u) as T; rewrite (Q u) in T; exact T).
      unfold rvs, pvs. cbn [ath]. clear - T. induction l as [|u l IH]; [reflexivity|]. cbn [flat_map]. rewrite T. cbn. exact IH.
Qed.

(** * C63: operations finish *)
(** In every execution of threads [l], the steps taken by operations are bounded by the number of operations
    called: an execution in which operations run for ever without new ones being called does not exist. *)
Theorem C63_total_work : forall A sch s e l, run A (init A) sch = Next A s e ->
  NoDup l -> (forall t a, In (t, a) sch -> In t l) ->
  works A sch <= ncalls A sch * (12 * length l + 6).
Proof.
  intros A sch s e l R D T.
  assert (CV : covers A (init A) l) by (split; [exact D|intros t N; exfalso; apply N; reflexivity]).
  pose proof (meas_sched A sch _ _ _ _ l s e (inv_init A) CV T R) as M.
  assert (Z : meas A (init A) l = 0).
  { unfold meas, sumw, sump. cbn [lag nxt init tail Nat.eqb pcs]. assert (X : forall m : list nat, list_sum (map (fun _ => 0) m) = 0) by (induction m; auto). cbn [wt pn].
    change (lag A (init A)) with 0. rewrite !X. reflexivity. }
  rewrite Z in M. lia.
Qed.
(** A thread inside an operation can always take its next step, whatever the others do or do not do. *)
Theorem C63_never_blocked : forall A sch s e t, run A (init A) sch = Next A s e -> pcs A s t <> PIdle A ->
  exists a s' e', work A a = true /\ step A s t a = Next A s' e'.
Proof. intros A sch s e t R N. destruct (reach_inv A sch s e R) as (c & th & q & f & _ & I). exact (enabled A s c th q t I N). Qed.

(** * C64: memory *)
(** When no operation is under way, the blocks in use are the sentinel, one for every stored item, and those
    waiting for the collector. *)
Theorem C64_no_leak : forall A sch s e, run A (init A) sch = Next A s e -> quiet s ->
  length (live A s) = 1 + length (contents s) + length (retired A s).
Proof.
  intros A sch s e R Q. destruct (reach_inv A sch s e R) as (c & th & q & f & _ & I). rewrite (contents_inv _ _ _ _ _ I).
  rewrite (Permutation_length (v_perm _ _ _ _ _ I)), !app_length, map_length.
  assert (O : owners A s = []).
  { unfold owners. induction (pinned A s) as [|u l IH]; [reflexivity|]. cbn [flat_map]. rewrite (Q u). exact IH. }
  rewrite O. pose proof (v_items _ _ _ _ _ I) as F. pose proof (v_link _ _ _ _ _ I) as L. destruct c as [|a c]; [destruct L|]. cbn [tl length] in *.
  assert (X : length c = length q) by (clear - F; induction F; cbn; congruence). lia.
Qed.
(** The collector can always get rid of everything that waits for it once every thread has left its guard. *)
Theorem C64_collectable : forall A sch s e a, run A (init A) sch = Next A s e -> pinned A s = [] -> In a (map fst (retired A s)) ->
  exists s', step A s 0 (AFree A a) = Next A s' [] /\ length (live A s') < length (live A s).
Proof.
  intros A sch s e a R P I. destruct (reach_inv A sch s e R) as (c & th & q & f & _ & V). cbn [step].
  assert (X : existsb (fun x => (fst x =? a) && match snd x with [] => true | _ => false end) (retired A s) = true).
  { apply existsb_exists. apply in_map_iff in I. destruct I as ((b, B) & E & I). cbn in E. subst b. exists (a, B). split; [exact I|]. cbn. rewrite Nat.eqb_refl.
    destruct B as [|t B]; [reflexivity|]. exfalso. pose proof (v_blk _ _ _ _ _ V a (t :: B) t I (or_introl eq_refl)) as W. rewrite P in W. exact W. }
  rewrite X. eexists. split; [reflexivity|]. cbn [live]. apply remove_length_lt. apply (retired_out A s c th q V). exact I.
Qed.

(** Dropping the queue (which needs exclusive access) drops each stored item once, in order, and frees the
    sentinel and every node; what remains waits for the collector already. *)
Lemma drop_chain A : forall c (s : st A) q n rest, linked (nxt A s) c -> hd 0 c = head A s -> Permutation (live A s) (c ++ rest) -> NoDup (live A s) -> ~ In 0 c ->
  Forall2 (fun a v => dat A s a = Some v) (tl c) q -> length c <= n -> exists l, qdrop A n s = Some (q, l) /\ Permutation l rest.
Proof.
  induction c as [|a c IH]; intros s q n rest L H P D Z F N; [destruct L|]. destruct n as [|n]; [cbn in N; lia|]. cbn [hd] in H. cbn [qdrop]. rewrite <- H.
  assert (IL : mem a (live A s) = true) by (apply mem_in; apply (Permutation_in _ (Permutation_sym P)); left; reflexivity). rewrite IL.
  assert (PR : Permutation (remove Nat.eq_dec a (live A s)) (c ++ rest)) by (apply (remove_perm (live A s) [] a (c ++ rest) P D)).
  destruct c as [|b c].
  - cbn in L. rewrite L. cbn [Nat.eqb]. cbn in F. assert (Q : q = []) by (inversion F; reflexivity). subst q. exists (remove Nat.eq_dec a (live A s)). auto.
  - destruct L as (E & L). rewrite E. rewrite (proj2 (Nat.eqb_neq b 0)) by (intros ->; apply Z; right; left; reflexivity).
    subst b. cbn [tl] in F. inversion F as [|? v ? q' Db Fq X1 X2]. subst q. clear F.
    assert (IB : mem (nxt A s a) (remove Nat.eq_dec a (live A s)) = true) by (apply mem_in; apply (Permutation_in _ (Permutation_sym PR)); left; reflexivity).
    assert (NB : ~ In (nxt A s a) c).
    { pose proof (Permutation_NoDup P D) as D2. cbn in D2. inversion D2 as [|? ? _ D3 Q1]. cbn in D3. inversion D3 as [|? ? NI _ Q2]. intros I. apply NI. apply in_or_app. left. exact I. }
    rewrite IB, Db.
    match goal with |- context [qdrop A n ?s'] => destruct (IH s' q' n rest) as (lo & E2 & PL) end; cbn [nxt live head dat hd tl]; try assumption.
    + reflexivity.
    + apply nodup_remove. exact D.
    + intros I. apply Z. right. exact I.
    + clear - Fq NB. induction Fq as [|x w c q' Dx Fq IH]; constructor.
      * rewrite fup_other; [exact Dx|]. intros ->. apply NB. left. reflexivity.
      * apply IH. intros I. apply NB. right. exact I.
    + cbn in N |- *. lia.
    + rewrite E2. exists lo. auto.
Qed.
Theorem C64_drop : forall A sch s e, run A (init A) sch = Next A s e -> quiet s ->
  exists l, qdrop A (length (live A s)) s = Some (contents s, l) /\ Permutation l (map fst (retired A s)).
Proof.
  intros A sch s e R Q. destruct (reach_inv A sch s e R) as (c & th & q & f & _ & I). rewrite (contents_inv _ _ _ _ _ I).
  assert (O : owners A s = []).
  { unfold owners. induction (pinned A s) as [|u l IH]; [reflexivity|]. cbn [flat_map]. rewrite (Q u). exact IH. }
  pose proof (v_perm _ _ _ _ _ I) as P. rewrite O in P. cbn [app] in P. apply (drop_chain A c).
  - exact (v_link _ _ _ _ _ I).
  - exact (v_head _ _ _ _ _ I).
  - exact P.
  - exact (v_nodup _ _ _ _ _ I).
  - intros Z. apply (v_zero _ _ _ _ _ I). exact (chain_live _ _ _ _ _ _ I Z).
  - exact (v_items _ _ _ _ _ I).
  - rewrite (Permutation_length P), app_length. lia.
Qed.

(** * Cases *)
Definition R1 (t : nat) : nat * act nat := (t, ARun nat).
Fixpoint rep {B} (n : nat) (x : B) : list B := match n with 0 => [] | S n => x :: rep n x end.
(** thread 1 links 7 and stops before moving the tail; thread 2 helps and enqueues 8; thread 3 dequeues both;
    the freed blocks are used again by thread 2 *)
Definition sch1 : list (nat * act nat) :=
  [(1, APin nat); (2, APin nat); (3, APin nat); (1, ACall nat (OEnq nat 7)); (1, AAlloc nat 2); R1 1; R1 1; R1 1;
   (2, ACall nat (OEnq nat 8)); (2, AAlloc nat 3)] ++ rep 8 (R1 2) ++ [(3, ACall nat (ODeq nat))] ++ rep 7 (R1 3)
  ++ [R1 1; R1 1; (1, AUnpin nat); (3, ACall nat (ODeq nat))] ++ rep 7 (R1 3) ++ [(2, AUnpin nat); (3, AUnpin nat); (0, AFree nat 1); (0, AFree nat 2);
   (2, APin nat); (2, ACall nat (OEnq nat 9)); (2, AAlloc nat 1)] ++ rep 5 (R1 2).
Definition view {A} (o : outcome A) : option (list (event A) * list A * list nat * list nat) :=
  match o with Next _ s e => Some (e, contents s, live A s, map fst (retired A s)) | _ => None end.
Example C40_case : view (run nat (init nat) sch1) =
  Some ([EInv nat 1 (OEnq nat 7); EInv nat 2 (OEnq nat 8); ERet nat 2 (RDone nat); EInv nat 3 (ODeq nat); ERet nat 3 (RItem nat (Some 7)); ERet nat 1 (RDone nat);
         EInv nat 3 (ODeq nat); ERet nat 3 (RItem nat (Some 8)); EInv nat 2 (OEnq nat 9); ERet nat 2 (RDone nat)], [9], [1; 3], []).
Proof. vm_compute. reflexivity. Qed.
Example C63_case : works nat sch1 = 35 /\ ncalls nat sch1 * (12 * length [0; 1; 2; 3] + 6) = 270.
Proof. vm_compute. repeat split. Qed.
(** a thread in the middle of an operation while another has finished one *)
Example C63_case2 : exists s e, run nat (init nat) (firstn 18 sch1) = Next nat s e /\ pcs nat s 1 = PSwing nat 2 1.
Proof. eexists. eexists. split; [vm_compute; reflexivity|vm_compute; reflexivity]. Qed.
Definition sch2 : list (nat * act nat) :=
  [(1, APin nat); (1, ACall nat (OEnq nat 7)); (1, AAlloc nat 2)] ++ rep 5 (R1 1) ++ [(1, ACall nat (OEnq nat 8)); (1, AAlloc nat 3)] ++ rep 5 (R1 1)
  ++ [(1, ACall nat (OEnq nat 9)); (1, AAlloc nat 4)] ++ rep 5 (R1 1) ++ [(1, ACall nat (ODeq nat))] ++ rep 7 (R1 1) ++ [(1, AUnpin nat)].
Example C64_case : option_map (fun x => snd x) (view (run nat (init nat) sch2)) = Some [1] /\
  match run nat (init nat) sch2 with Next _ s _ => qdrop nat (length (live nat s)) s = Some ([8; 9], [1]) /\ pinned nat s = [] | _ => False end.
Proof. vm_compute. repeat split. Qed.

Print Assumptions C40_no_undefined_behaviour.
Print Assumptions C40_linearizable.
Print Assumptions C40_conservation.
Print Assumptions C63_total_work.
Print Assumptions C63_never_blocked.
Print Assumptions C64_no_leak.
Print Assumptions C64_collectable.
Print Assumptions C64_drop.
