(** The change queue: every schedule behaves as the atomic queue. *)
From Coq Require Import List Arith Bool Lia Permutation.
From Verif Require Import QueueModel QueueSpec.
Import ListNotations.

Section Proofs.
Variable A : Type.
Notation st := (st A).
Notation pc := (pc A).
Notation live := (@QueueModel.live A).
Notation nxt := (@QueueModel.nxt A).
Notation dat := (@QueueModel.dat A).
Notation head := (@QueueModel.head A).
Notation tail := (@QueueModel.tail A).
Notation pinned := (@QueueModel.pinned A).
Notation retired := (@QueueModel.retired A).
Notation pcs := (@QueueModel.pcs A).

Lemma fup_same {B} (f : nat -> B) a x : fup f a x a = x.
Proof. unfold fup. rewrite Nat.eqb_refl. reflexivity. Qed.
Lemma fup_other {B} (f : nat -> B) a x b : b <> a -> fup f a x b = f b.
Proof. intros N. unfold fup. destruct (b =? a) eqn:E; [apply Nat.eqb_eq in E; contradiction|reflexivity]. Qed.
Lemma mem_in a l : mem a l = true <-> In a l.
Proof.
  unfold mem. rewrite existsb_exists. split.
  - intros (x & I & E). apply Nat.eqb_eq in E. subst x. exact I.
  - intros I. exists a. split; [exact I|apply Nat.eqb_refl].
Qed.
Lemma mem_out a l : mem a l = false <-> ~ In a l.
Proof. rewrite <- mem_in. destruct (mem a l); split; congruence. Qed.

(** * The chain from the head *)
Fixpoint linked (f : nat -> nat) (c : list nat) : Prop :=
  match c with [] => False | [a] => f a = 0 | a :: (b :: _) as r => f a = b /\ linked f r end.

Lemma linked_last f c : linked f c -> f (last c 0) = 0 /\ In (last c 0) c.
Proof.
  induction c as [|a [|b c] IH]; intros L; [destruct L|cbn in *; auto|]. destruct L as (_ & L). destruct (IH L) as (E & I).
  change (last (a :: b :: c) 0) with (last (b :: c) 0). split; [exact E|right; exact I].
Qed.
Lemma linked_next f c a : linked f c -> In a c -> f a = 0 /\ a = last c 0 \/ In (f a) (List.tl c).
Proof.
  induction c as [|x [|y c] IH]; intros L I; [destruct I| |].
  - destruct I as [->|[]]. cbn in *. auto.
  - destruct L as (E & L). destruct I as [->|I]; [right; rewrite E; left; reflexivity|]. change (last (x :: y :: c) 0) with (last (y :: c) 0).
    destruct (IH L I) as [H|H]; [left; exact H|right; cbn [List.tl] in *; right; exact H].
Qed.
Lemma linked_ext f g c : (forall a, In a c -> g a = f a) -> linked f c -> linked g c.
Proof.
  induction c as [|a [|b c] IH]; intros E L; [exact L|cbn in *; rewrite E by auto; exact L|]. destruct L as (L1 & L2). split.
  - rewrite E by (left; reflexivity). exact L1.
  - apply IH; [intros z Z; apply E; right; exact Z|exact L2].
Qed.
Lemma linked_app f c n : linked f c -> NoDup c -> ~ In n c -> f n = 0 -> linked (fup f (last c 0) n) (c ++ [n]).
Proof.
  induction c as [|a [|b c] IH]; intros L D N Z; [destruct L| |].
  - cbn in *. rewrite fup_same. split; [reflexivity|]. rewrite fup_other by (intros ->; tauto). exact Z.
  - destruct L as (E & L). change (last (a :: b :: c) 0) with (last (b :: c) 0). inversion D as [|? ? Da Db]; clear D.
    pose proof (linked_last _ _ L) as (_ & IL). split.
    + rewrite fup_other; [exact E|]. intros Q. apply Da. rewrite Q. exact IL.
    + apply IH; [exact L|exact Db| |exact Z]. intros I. apply N. right. exact I.
Qed.
Lemma linked_tl f a c : linked f (a :: c) -> c <> [] -> linked f c /\ f a = hd 0 c.
Proof. destruct c as [|b c]; intros L N; [contradiction|]. destruct L as (E & L). auto. Qed.

(** * What threads own and look at *)
Definition own (p : pc) : list nat :=
  match p with
  | PTail _ n | PNext _ n _ | PLink _ n _ | PHelp _ n _ _ => [n]
  | DTail _ h _ | DFix _ h _ | DRetire _ h _ => [h]
  | _ => []
  end.
(** the node whose item the thread will take *)
Definition pend (p : pc) : list nat :=
  match p with DTail _ _ x | DFix _ _ x | DRetire _ _ x | DRead _ x => [x] | _ => [] end.
(** nodes that were the head *)
Definition past (p : pc) : list nat :=
  match p with DNext _ h | DSwing _ h _ => [h] | p => pend p end.

Definition prot (s : st) (t a : nat) : Prop := In a (live s) /\ forall B, In (a, B) (retired s) -> In t B.

(** a node that thread [t] may look at: in the chain, or before it with everything up to the chain protected *)
Inductive holds (s : st) (c : list nat) (t : nat) : nat -> Prop :=
| h_chain a : In a c -> holds s c t a
| h_next a : prot s t a -> nxt s a <> 0 -> holds s c t (nxt s a) -> holds s c t a.

Definition priv (s : st) (n : nat) (a : athread A) : Prop :=
  nxt s n = 0 /\ exists v, dat s n = Some v /\ a = APending A (OEnq A v).
Definition got (s : st) (c : list nat) (t x : nat) (a : athread A) : Prop :=
  holds s c t x /\ ~ In x (List.tl c) /\ exists v, dat s x = Some v /\ a = AReady A (RItem A (Some v)).

Definition tinv (s : st) (c : list nat) (t : nat) (p : pc) (a : athread A) : Prop :=
  match p with
  | PIdle _ => a = AIdle A
  | PAlloc _ v => a = APending A (OEnq A v)
  | PTail _ n => priv s n a
  | PNext _ n b | PLink _ n b => priv s n a /\ holds s c t b /\ (b = last c 0 -> tail s = b)
  | PHelp _ n b x => priv s n a /\ holds s c t b /\ nxt s b = x /\ x <> 0
  | PSwing _ n b => holds s c t b /\ nxt s b = n /\ n <> 0 /\ a = AReady A (RDone A)
  | DHead _ => a = APending A (ODeq A)
  | DNext _ h => holds s c t h /\ ~ In h (List.tl c) /\ a = APending A (ODeq A)
  | DSwing _ h x => holds s c t h /\ ~ In h (List.tl c) /\ nxt s h = x /\ x <> 0 /\ a = APending A (ODeq A)
  | DTail _ h x | DFix _ h x => nxt s h = x /\ x <> 0 /\ got s c t x a
  | DRetire _ h x => nxt s h = x /\ x <> 0 /\ tail s <> h /\ got s c t x a
  | DRead _ x => got s c t x a
  | PRet _ r => a = AReady A r
  end.

Definition owners (s : st) : list nat := flat_map (fun t => own (pcs s t)) (pinned s).

Record Inv (s : st) (c : list nat) (th : nat -> athread A) (q : list A) : Prop := MkInv {
  v_head : hd 0 c = head s;
  v_link : linked (nxt s) c;
  v_perm : Permutation (live s) (c ++ owners s ++ map fst (retired s));
  v_nodup : NoDup (live s);
  v_zero : ~ In 0 (live s);
  v_pin : NoDup (pinned s);
  v_idle : forall t, ~ In t (pinned s) -> pcs s t = PIdle A;
  v_blk : forall a B t, In (a, B) (retired s) -> In t B -> In t (pinned s);
  v_tail : (In (tail s) c \/ exists t h x, (pcs s t = DTail A h x \/ pcs s t = DFix A h x) /\ h = tail s) /\
           (tail s = last c 0 \/ nxt s (tail s) = last c 0);
  v_items : Forall2 (fun a v => dat s a = Some v) (List.tl c) q;
  v_th : forall t, tinv s c t (pcs s t) (th t);
  v_pend : forall t t' x, In x (pend (pcs s t)) -> In x (pend (pcs s t')) -> t = t'
}.

(** * Frames *)
Lemma hmono s c s' c' t a :
  (forall b, In b c -> In b c' \/ (prot s' t b /\ nxt s' b <> 0 /\ In (nxt s' b) c')) ->
  (forall b, prot s t b -> nxt s b <> 0 -> prot s' t b /\ nxt s' b = nxt s b) ->
  holds s c t a -> holds s' c' t a.
Proof.
  intros C P H. induction H as [a I|a PA NZ H IH].
  - destruct (C a I) as [I'|(PA & NZ & I')]; [apply h_chain; exact I'|]. apply h_next; [exact PA|exact NZ|apply h_chain; exact I'].
  - destruct (P a PA NZ) as (PA' & E). apply h_next; [exact PA'|rewrite E; exact NZ|rewrite E; exact IH].
Qed.

Lemma holds_zero s c th q t a : Inv s c th q -> holds s c t a -> nxt s a = 0 -> a = last c 0 /\ In a c.
Proof.
  intros I H Z. destruct H as [a J|a _ N _]; [|contradiction]. destruct (linked_next _ _ a (v_link _ _ _ _ I) J) as [(_ & E)|X]; [auto|].
  exfalso. apply (v_zero _ _ _ _ I). rewrite <- Z. apply (Permutation_in _ (Permutation_sym (v_perm _ _ _ _ I))).
  rewrite in_app_iff. left. destruct c; [destruct X|right; exact X].
Qed.
Lemma chain_live s c th q a : Inv s c th q -> In a c -> In a (live s).
Proof. intros I J. apply (Permutation_in _ (Permutation_sym (v_perm _ _ _ _ I))). rewrite in_app_iff. left. exact J. Qed.
Lemma holds_live s c th q t a : Inv s c th q -> holds s c t a -> In a (live s).
Proof. intros I H. destruct H as [a J|a P _ _]; [exact (chain_live _ _ _ _ _ I J)|apply P]. Qed.
Lemma holds_step s c th q t a : Inv s c th q -> holds s c t a -> nxt s a <> 0 -> holds s c t (nxt s a).
Proof.
  intros I H N. destruct H as [a J|a _ _ H]; [|exact H]. apply h_chain.
  destruct (linked_next _ _ a (v_link _ _ _ _ I) J) as [(E & _)|X]; [contradiction|]. destruct c; [destruct X|right; exact X].
Qed.

Lemma nodup_app_disj (l1 l2 : list nat) z : NoDup (l1 ++ l2) -> In z l1 -> In z l2 -> False.
Proof.
  intros D I J. apply in_split in I. destruct I as (u & v & ->). rewrite <- app_assoc in D. cbn [app] in D. apply NoDup_remove_2 in D.
  apply D. rewrite !in_app_iff. tauto.
Qed.
Lemma NoDup_app_l {B} (l l' : list B) : NoDup (l ++ l') -> NoDup l'.
Proof. induction l as [|a l IH]; intros D; [exact D|]. inversion D. auto. Qed.
Lemma NoDup_app_r {B} (l l' : list B) : NoDup (l ++ l') -> NoDup l.
Proof.
  induction l as [|a l IH]; intros D; [constructor|]. inversion D as [|? ? N D']. constructor; [|auto].
  intros I. apply N. apply in_or_app. left. exact I.
Qed.

Section Facts.
Variables (s : st) (c : list nat) (th : nat -> athread A) (q : list A).
Hypothesis I : Inv s c th q.

Lemma parts_nodup : NoDup (c ++ owners s ++ map fst (retired s)).
Proof. exact (Permutation_NoDup (v_perm _ _ _ _ I) (v_nodup _ _ _ _ I)). Qed.
Lemma chain_nodup : NoDup c.
Proof. exact (NoDup_app_r _ _ parts_nodup). Qed.
Lemma owned_in t n : In t (pinned s) -> In n (own (pcs s t)) -> In n (owners s).
Proof. intros P O. unfold owners. apply in_flat_map. exists t. auto. Qed.
Lemma own_pinned t n : In n (own (pcs s t)) -> In t (pinned s).
Proof.
  intros O. destruct (in_dec Nat.eq_dec t (pinned s)) as [P|P]; [exact P|]. rewrite (v_idle _ _ _ _ I t P) in O. destruct O.
Qed.
Lemma owned_live t n : In n (own (pcs s t)) -> In n (live s).
Proof.
  intros O. apply (Permutation_in _ (Permutation_sym (v_perm _ _ _ _ I))). rewrite !in_app_iff. right. left.
  exact (owned_in t n (own_pinned t n O) O).
Qed.
Lemma owned_out t n : In n (own (pcs s t)) -> ~ In n c /\ ~ In n (map fst (retired s)).
Proof.
  intros O. pose proof (owned_in t n (own_pinned t n O) O) as J. pose proof parts_nodup as D. split; intros X.
  - apply (nodup_app_disj _ _ n D X). rewrite in_app_iff. auto.
  - apply NoDup_app_l in D. exact (nodup_app_disj _ _ n D J X).
Qed.
Lemma retired_out a : In a (map fst (retired s)) -> ~ In a c /\ In a (live s).
Proof.
  intros R. pose proof parts_nodup as D. split.
  - intros X. apply (nodup_app_disj _ _ a D X). rewrite in_app_iff. auto.
  - apply (Permutation_in _ (Permutation_sym (v_perm _ _ _ _ I))). rewrite !in_app_iff. auto.
Qed.
Lemma owner_unique t t' n : In n (own (pcs s t)) -> In n (own (pcs s t')) -> t = t'.
Proof.
  intros O O'. destruct (Nat.eq_dec t t') as [E|N]; [exact E|]. exfalso.
  pose proof (own_pinned t n O) as P. pose proof (own_pinned t' n O') as P'.
  assert (D : NoDup (owners s)) by (pose proof parts_nodup as D; apply NoDup_app_l, NoDup_app_r in D; exact D).
  unfold owners in D. revert P P' D. induction (pinned s) as [|u l IH]; intros P P' D; [destruct P|]. cbn [flat_map] in D.
  destruct P as [->|P], P' as [Q|P']; [congruence| | |].
  - apply (nodup_app_disj _ _ n D O). apply in_flat_map. exists t'. auto.
  - subst u. apply (nodup_app_disj _ _ n D O'). apply in_flat_map. exists t. auto.
  - apply IH; [exact P|exact P'|]. apply NoDup_app_l in D. exact D.
Qed.
Lemma last_in : In (last c 0) c /\ nxt s (last c 0) = 0.
Proof. destruct (linked_last _ _ (v_link _ _ _ _ I)) as (E & J). auto. Qed.
Lemma last_nz : last c 0 <> 0.
Proof. intros E. apply (v_zero _ _ _ _ I). rewrite <- E at 1. apply (chain_live _ _ _ _ _ I). apply last_in. Qed.
(** the tail is protected for everybody *)
Lemma tail_holds t : holds s c t (tail s).
Proof.
  destruct (v_tail _ _ _ _ I) as ([J|(t0 & h & x & E & Eh)] & T); [apply h_chain; exact J|]. subst h.
  assert (O : In (tail s) (own (pcs s t0))) by (destruct E as [-> | ->]; left; reflexivity).
  destruct (owned_out t0 _ O) as (N1 & N2). destruct T as [T|T]; [exfalso; apply N1; rewrite T; apply last_in|].
  apply h_next.
  - split; [exact (owned_live t0 _ O)|]. intros B X. exfalso. apply N2. apply in_map_iff. exists (tail s, B). auto.
  - rewrite T. apply last_nz.
  - rewrite T. apply h_chain, last_in.
Qed.
Lemma tail_not_retired : ~ In (tail s) (map fst (retired s)).
Proof.
  intros R. destruct (retired_out _ R) as (N & _). destruct (v_tail _ _ _ _ I) as ([J|(t0 & h & x & E & Eh)] & T); [contradiction|]. subst h.
  assert (O : In (tail s) (own (pcs s t0))) by (destruct E as [-> | ->]; left; reflexivity). destruct (owned_out t0 _ O). contradiction.
Qed.
(** moving the tail on from where it is reaches the last node *)
Lemma tail_next : nxt s (tail s) <> 0 -> nxt s (tail s) = last c 0.
Proof. intros N. destruct (v_tail _ _ _ _ I) as (_ & [T|T]); [|exact T]. exfalso. apply N. rewrite T. apply last_in. Qed.
End Facts.

(** other threads see no difference *)
Lemma tinv_frame s c s' c' t a :
  (forall b, holds s c t b -> holds s' c' t b /\ (nxt s b <> 0 -> nxt s' b = nxt s b)) ->
  (forall n, In n (own (pcs s t)) -> nxt s' n = nxt s n /\ (nxt s n = 0 -> dat s' n = dat s n) /\ (tail s <> n -> tail s' <> n)) ->
  (forall b, holds s c t b -> (b = last c 0 -> tail s = b) -> b = last c' 0 -> tail s' = b) ->
  (forall x, In x (pend (pcs s t)) -> dat s' x = dat s x) ->
  (forall x, In x (past (pcs s t)) -> ~ In x (List.tl c) -> ~ In x (List.tl c')) ->
  tinv s c t (pcs s t) a -> tinv s' c' t (pcs s t) a.
Proof.
  intros H O W P Q T. unfold tinv, priv, got in *.
  destruct (pcs s t) as [|v|n|n b|n b|n b x|n b| |h|h x|h x|h x|h x|x|r]; cbn [own pend past In] in *; try exact T.
  - destruct (O n (or_introl eq_refl)) as (E1 & E2 & _). destruct T as (Z & v & D & E). split; [congruence|]. exists v. rewrite E2 by exact Z. auto.
  - destruct (O n (or_introl eq_refl)) as (E1 & E2 & _). destruct T as ((Z & v & D & E) & HB & HT). split; [|split; [apply H; exact HB|apply W; assumption]]. split; [congruence|]. exists v. rewrite E2 by exact Z. auto.
  - destruct (O n (or_introl eq_refl)) as (E1 & E2 & _). destruct T as ((Z & v & D & E) & HB & HT). split; [|split; [apply H; exact HB|apply W; assumption]]. split; [congruence|]. exists v. rewrite E2 by exact Z. auto.
  - destruct (O n (or_introl eq_refl)) as (E1 & E2 & _). destruct T as ((Z & v & D & E) & HB & NB & NX). split; [split; [congruence|]; exists v; rewrite E2 by exact Z; auto|].
    destruct (H b HB) as (HB' & NB'). split; [exact HB'|]. split; [|exact NX]. rewrite NB'; congruence.
  - destruct T as (HB & NB & NX & E). destruct (H b HB) as (HB' & NB'). split; [exact HB'|]. split; [rewrite NB'; congruence|auto].
  - destruct T as (HB & NT & E). split; [apply H; exact HB|]. split; [apply Q; auto|exact E].
  - destruct T as (HB & NT & NB & NX & E). destruct (H h HB) as (HB' & NB'). split; [exact HB'|]. split; [apply Q; auto|]. split; [rewrite NB'; congruence|auto].
  - destruct T as (NB & NX & HB & NT & v & D & E). destruct (O h (or_introl eq_refl)) as (E1 & _). split; [congruence|]. split; [exact NX|].
    split; [apply H; exact HB|]. split; [apply Q; auto|]. exists v. rewrite P by auto. auto.
  - destruct T as (NB & NX & HB & NT & v & D & E). destruct (O h (or_introl eq_refl)) as (E1 & _). split; [congruence|]. split; [exact NX|].
    split; [apply H; exact HB|]. split; [apply Q; auto|]. exists v. rewrite P by auto. auto.
  - destruct T as (NB & NX & TL & HB & NT & v & D & E). destruct (O h (or_introl eq_refl)) as (E1 & _ & E3). split; [congruence|]. split; [exact NX|].
    split; [apply E3; exact TL|]. split; [apply H; exact HB|]. split; [apply Q; auto|]. exists v. rewrite P by auto. auto.
  - destruct T as (HB & NT & v & D & E). split; [apply H; exact HB|]. split; [apply Q; auto|]. exists v. rewrite P by auto. auto.
Qed.

(** ** the owners when one thread moves *)
Lemma flat_out (f : nat -> pc) l t p : ~ In t l -> flat_map (fun u => own (fup f t p u)) l = flat_map (fun u => own (f u)) l.
Proof.
  induction l as [|u l IH]; intros N; [reflexivity|]. cbn [flat_map]. rewrite fup_other by (intros E; apply N; left; congruence).
  rewrite IH by (intros X; apply N; right; exact X). reflexivity.
Qed.
Lemma owners_split (f : nat -> pc) l t : In t l -> NoDup l ->
  exists o, Permutation (flat_map (fun u => own (f u)) l) (own (f t) ++ o) /\
    forall p, Permutation (flat_map (fun u => own (fup f t p u)) l) (own p ++ o).
Proof.
  intros J D. apply in_split in J. destruct J as (l1 & l2 & ->). pose proof (NoDup_remove_2 _ _ _ D) as N. rewrite in_app_iff in N.
  exists (flat_map (fun u => own (f u)) l1 ++ flat_map (fun u => own (f u)) l2). split.
  - rewrite flat_map_app. cbn [flat_map]. rewrite Permutation_app_swap_app. apply Permutation_refl.
  - intros p. rewrite flat_map_app. cbn [flat_map]. rewrite fup_same, !flat_out by tauto.
    rewrite Permutation_app_swap_app. apply Permutation_refl.
Qed.

Lemma past_pend p : incl (pend p) (past p).
Proof. destruct p; intros y Y; try exact Y; destruct Y. Qed.

(** a step that changes only where the thread is, and perhaps the tail *)
Lemma inv_local s c th q t p tl' a :
  Inv s c th q -> In t (pinned s) -> own p = own (pcs s t) -> incl (pend p) (pend (pcs s t)) ->
  (tl' = tail s /\ (forall h x, pcs s t = DTail A h x \/ pcs s t = DFix A h x -> h = tail s -> p = DTail A h x \/ p = DFix A h x) \/ tl' = last c 0) ->
  (let s' := MkSt A (live s) (nxt s) (dat s) (head s) tl' (pinned s) (retired s) (fup (pcs s) t p) in
   (forall b, holds s c t b -> holds s' c t b) -> tinv s' c t p a) ->
  Inv (MkSt A (live s) (nxt s) (dat s) (head s) tl' (pinned s) (retired s) (fup (pcs s) t p)) c (fup th t a) q.
Proof.
  intros I P O PE T TI. set (s' := MkSt A _ _ _ _ _ _ _ _) in *.
  assert (HM : forall u b, holds s c u b -> holds s' c u b).
  { intros u b. apply hmono; [intros z Z; left; exact Z|]. intros z Z _. split; [exact Z|reflexivity]. }
  assert (TL : forall n u, In n (own (pcs s u)) -> tail s <> n -> tl' <> n).
  { intros n u ON N. destruct T as [(-> & _)|T]; [exact N|]. destruct (owned_out _ _ _ _ I u n ON) as (NC & _). intros E. apply NC. rewrite <- E, T. apply (last_in _ _ _ _ I). }
  constructor; cbn [s' live nxt dat head tail pinned retired pcs].
  - exact (v_head _ _ _ _ I).
  - exact (v_link _ _ _ _ I).
  - rewrite (v_perm _ _ _ _ I). apply Permutation_app_head, Permutation_app_tail. unfold owners. cbn [s' pinned pcs].
    destruct (owners_split (pcs s) (pinned s) t P (v_pin _ _ _ _ I)) as (o & E1 & E2). rewrite E1, E2, O. apply Permutation_refl.
  - exact (v_nodup _ _ _ _ I).
  - exact (v_zero _ _ _ _ I).
  - exact (v_pin _ _ _ _ I).
  - intros u N. rewrite fup_other; [apply (v_idle _ _ _ _ I); exact N|]. intros ->. contradiction.
  - exact (v_blk _ _ _ _ I).
  - destruct T as [(-> & W)|T].
    + destruct (v_tail _ _ _ _ I) as ([J|(u & h & x & E & Eh)] & K); (split; [|exact K]); [left; exact J|right].
      destruct (Nat.eq_dec u t) as [Q|Q].
      * subst u. exists t, h, x. rewrite fup_same. split; [apply W; [exact E|exact Eh]|exact Eh].
      * exists u, h, x. rewrite fup_other by exact Q. auto.
    + subst tl'. split; [left; apply (last_in _ _ _ _ I)|left; reflexivity].
  - exact (v_items _ _ _ _ I).
  - intros u. destruct (Nat.eq_dec u t) as [Q|Q].
    + subst u. rewrite !fup_same. apply TI. apply HM.
    + rewrite !fup_other by exact Q. apply (tinv_frame s c s' c u); [| | | | |apply (v_th _ _ _ _ I)].
      * intros b B. split; [apply HM; exact B|reflexivity].
      * intros n ON. split; [reflexivity|]. split; [reflexivity|]. apply (TL n u ON).
      * intros b _ K E. cbn [s' tail]. destruct T as [(-> & _)|T]; [apply K; exact E|congruence].
      * reflexivity.
      * auto.
  - intros u u' x X X'.
    assert (SUB : forall w, In x (pend (fup (pcs s) t p w)) -> In x (pend (pcs s w))).
    { intros w W. destruct (Nat.eq_dec w t) as [Q|Q]; [subst w; rewrite fup_same in W; apply PE; exact W|rewrite fup_other in W by exact Q; exact W]. }
    apply (v_pend _ _ _ _ I u u' x); apply SUB; assumption.
Qed.

Lemma inv_eta s c th q : Inv s c th q -> forall th', (forall t, th' t = th t) -> Inv s c th' q.
Proof.
  intros [] th' E. constructor; auto. intros t. rewrite E. auto.
Qed.
Lemma fup_self {B} (f : nat -> B) t u : fup f t (f t) u = f u.
Proof. unfold fup. destruct (u =? t) eqn:E; [apply Nat.eqb_eq in E; subst u; reflexivity|reflexivity]. Qed.

Lemma nonidle_pinned s c th q t : Inv s c th q -> pcs s t <> PIdle A -> In t (pinned s).
Proof.
  intros I N. destruct (in_dec Nat.eq_dec t (pinned s)) as [P|P]; [exact P|]. destruct (N (v_idle _ _ _ _ I t P)).
Qed.

(** like [inv_local] for a step without effect on the queue *)
Lemma inv_same s c th q t p tl' :
  Inv s c th q -> pcs s t <> PIdle A -> own p = own (pcs s t) -> incl (pend p) (pend (pcs s t)) ->
  (tl' = tail s /\ (forall h x, pcs s t = DTail A h x \/ pcs s t = DFix A h x -> h = tail s -> p = DTail A h x \/ p = DFix A h x) \/ tl' = last c 0) ->
  (let s' := MkSt A (live s) (nxt s) (dat s) (head s) tl' (pinned s) (retired s) (fup (pcs s) t p) in
   (forall b, holds s c t b -> holds s' c t b) -> tinv s' c t p (th t)) ->
  Inv (MkSt A (live s) (nxt s) (dat s) (head s) tl' (pinned s) (retired s) (fup (pcs s) t p)) c th q.
Proof.
  intros I N O PE T TI. apply (inv_eta _ c (fup th t (th t))); [|intros u; symmetry; apply fup_self].
  apply inv_local; auto. exact (nonidle_pinned _ _ _ _ _ I N).
Qed.

Lemma pend_sub s t p u x : incl (pend p) (pend (pcs s t)) -> In x (pend (fup (pcs s) t p u)) -> In x (pend (pcs s u)).
Proof.
  intros PE W. destruct (Nat.eq_dec u t) as [Q|Q]; [subst u; rewrite fup_same in W; apply PE; exact W|rewrite fup_other in W by exact Q; exact W].
Qed.
Lemma past_holds s c th q : Inv s c th q -> forall u x, In x (past (pcs s u)) -> holds s c u x.
Proof.
  intros I u x X. pose proof (v_th _ _ _ _ I u) as T. destruct (pcs s u); cbn [past pend In tinv] in *; unfold got in T;
    repeat match goal with H : _ \/ _ |- _ => destruct H end; subst; tauto.
Qed.
Lemma pend_tl s c th q : Inv s c th q -> forall u x, In x (pend (pcs s u)) -> ~ In x (List.tl c).
Proof.
  intros I u x X. pose proof (v_th _ _ _ _ I u) as T. destruct (pcs s u); cbn [past pend In tinv] in *; unfold got in T;
    repeat match goal with H : _ \/ _ |- _ => destruct H end; subst; tauto.
Qed.

Definition sim (s : st) (c : list nat) (th : nat -> athread A) (q : list A) (o : outcome A) : Prop :=
  match o with
  | Dis _ => True
  | UB _ => False
  | Next _ s' e => exists c' th' q' f, asteps A (MkA A q th) e f (MkA A q' th') /\ Inv s' c' th' q'
  end.
Lemma sim_silent s c th q s' : Inv s' c th q -> sim s c th q (Next A s' []).
Proof. intros I. exists c, th, q, []. split; [constructor|exact I]. Qed.
Lemma sim_one s c th q s' c' e f th' q' : astep A (MkA A q th) e f (MkA A q' th') -> Inv s' c' th' q' -> sim s c th q (Next A s' e).
Proof.
  intros S I. exists c', th', q', f. split; [|exact I]. rewrite <- (app_nil_r e), <- (app_nil_r f). eapply as_step; [exact S|constructor].
Qed.
Ltac cas I := unfold cas_tail; match goal with |- context [tail ?s =? ?a] => destruct (tail s =? a) eqn:ET; [apply Nat.eqb_eq in ET|apply Nat.eqb_neq in ET] end;
  unfold set_pc, set_tail; cbn [live nxt dat head tail pinned retired pcs].
Ltac keep := left; split; [reflexivity|intros ? ? [Q|Q]; congruence].

Lemma sim_run s c th q t : Inv s c th q -> sim s c th q (run1 A s t).
Proof.
  intros I. unfold run1. pose proof (v_th _ _ _ _ I t) as T.
  destruct (pcs s t) as [|v|n|n b|n b|n b x|n b| |h|h x|h x|h x|h x|x|r] eqn:EP; cbn [tinv] in T.
  - exact Logic.I.
  - exact Logic.I.
  - (* PTail *)
    apply sim_silent. apply (inv_same s c th q t); [exact I|rewrite EP; discriminate|rewrite EP; reflexivity|apply incl_nil_l|keep|].
    intros s' H. split; [exact T|]. split; [apply H; apply (tail_holds _ _ _ _ I)|reflexivity].
  - (* PNext *)
    destruct T as (TP & TB & TL). rewrite (proj2 (mem_in _ _) (holds_live _ _ _ _ _ _ I TB)). apply sim_silent.
    destruct (nxt s b =? 0) eqn:E; [|apply Nat.eqb_neq in E].
    + apply (inv_same s c th q t); [exact I|rewrite EP; discriminate|rewrite EP; reflexivity|apply incl_nil_l|keep|]. intros s' H. split; [exact TP|]. split; [apply H; exact TB|exact TL].
    + apply (inv_same s c th q t); [exact I|rewrite EP; discriminate|rewrite EP; reflexivity|apply incl_nil_l|keep|]. intros s' H. split; [exact TP|].
      split; [apply H; exact TB|]. split; [reflexivity|exact E].
  - (* PLink *)
    destruct T as ((TZ & v & TD & TA) & TB & TL). rewrite (proj2 (mem_in _ _) (holds_live _ _ _ _ _ _ I TB)).
    destruct (nxt s b =? 0) eqn:E; [apply Nat.eqb_eq in E|].
    + destruct (holds_zero _ _ _ _ _ _ I TB E) as (Eb & Ib).
      assert (P : In t (pinned s)) by (apply (nonidle_pinned _ _ _ _ _ I); rewrite EP; discriminate).
      assert (ON : In n (own (pcs s t))) by (rewrite EP; left; reflexivity).
      destruct (owned_out _ _ _ _ I t n ON) as (NC & NR). pose proof (owned_live _ _ _ _ I t n ON) as LN.
      assert (N0 : n <> 0) by (intros ->; exact (v_zero _ _ _ _ I LN)).
      assert (NB : forall z, z <> b -> fup (nxt s) b n z = nxt s z) by (intros z Z; apply fup_other; exact Z).
      eapply (sim_one _ _ _ _ _ (c ++ [n])); [apply a_enq; exact TA|].
      unfold set_pc, set_nxt. cbn [live nxt dat head tail pinned retired pcs]. set (s' := MkSt A _ _ _ _ _ _ _ _).
      assert (CN : exists d, c = head s :: d).
      { pose proof (v_head _ _ _ _ I) as HH. destruct c as [|a d]; [destruct Ib|]. exists d. cbn in HH. congruence. }
      destruct CN as (d & Ec).
      assert (TLc : List.tl (c ++ [n]) = List.tl c ++ [n]) by (rewrite Ec; reflexivity).
      assert (LC : last (c ++ [n]) 0 = n) by apply last_last.
      assert (HM : forall u z, holds s c u z -> holds s' (c ++ [n]) u z /\ (nxt s z <> 0 -> nxt s' z = nxt s z)).
      { intros u z Z. split; [|intros NZ; cbn [s' nxt]; apply NB; congruence]. revert Z. apply hmono.
        - intros y Y. left. rewrite in_app_iff. auto.
        - intros y Y NZ. split; [exact Y|]. cbn [s' nxt]. apply NB. congruence. }
      assert (NH : forall u, ~ holds s c u n).
      { intros u H. destruct (holds_zero _ _ _ _ _ _ I H TZ). contradiction. }
      constructor; cbn [s' live nxt dat head tail pinned retired pcs].
      * rewrite Ec. reflexivity.
      * subst b. apply linked_app; [exact (v_link _ _ _ _ I)|exact (chain_nodup _ _ _ _ I)|exact NC|exact TZ].
      * rewrite (v_perm _ _ _ _ I). unfold owners. cbn [s' pinned pcs].
        destruct (owners_split (pcs s) (pinned s) t P (v_pin _ _ _ _ I)) as (o & E1 & E2). rewrite E1, E2, EP. cbn [own app].
        rewrite <- !app_assoc. apply Permutation_refl.
      * exact (v_nodup _ _ _ _ I).
      * exact (v_zero _ _ _ _ I).
      * exact (v_pin _ _ _ _ I).
      * intros u N. rewrite fup_other; [apply (v_idle _ _ _ _ I); exact N|]. intros ->. contradiction.
      * exact (v_blk _ _ _ _ I).
      * rewrite LC. assert (TT : tail s = b).
        { apply TL. exact Eb. }
        split; [left; rewrite TT, in_app_iff; auto|right; rewrite TT; apply fup_same].
      * rewrite TLc. apply Forall2_app; [exact (v_items _ _ _ _ I)|]. constructor; [exact TD|constructor].
      * intros u. destruct (Nat.eq_dec u t) as [Q|Q].
        -- subst u. rewrite !fup_same. split; [apply h_chain; rewrite in_app_iff; auto|]. split; [apply fup_same|]. split; [exact N0|reflexivity].
        -- rewrite !fup_other by exact Q. apply (tinv_frame s c s' (c ++ [n]) u); [apply HM| | | | |apply (v_th _ _ _ _ I)].
           ++ intros m OM. destruct (owned_out _ _ _ _ I u m OM) as (MC & _). split; [apply NB; intros ->; contradiction|]. split; [reflexivity|auto].
           ++ intros z Z _ Ez. exfalso. rewrite LC in Ez. subst z. exact (NH u Z).
           ++ reflexivity.
           ++ intros x X NX. rewrite TLc, in_app_iff. intros [Y|[Y|[]]]; [contradiction|]. subst x. apply (NH u). exact (past_holds _ _ _ _ I u n X).
      * intros u u' x X X'. apply (v_pend _ _ _ _ I u u' x); [exact (pend_sub s t (PSwing A n b) u x (incl_nil_l _) X)|exact (pend_sub s t (PSwing A n b) u' x (incl_nil_l _) X')].
    + apply sim_silent. apply (inv_same s c th q t); [exact I|rewrite EP; discriminate|rewrite EP; reflexivity|apply incl_nil_l|keep|]. intros s' H. split; [exact TZ|]. exists v. auto.
  - (* PHelp *)
    destruct T as (TP & TB & TN & TZ). apply sim_silent. cas I.
    + apply (inv_same s c th q t); [exact I|rewrite EP; discriminate|rewrite EP; reflexivity|apply incl_nil_l| |intros s' H; exact TP].
      right. rewrite <- TN, <- ET. apply (tail_next _ _ _ _ I). congruence.
    + apply (inv_same s c th q t); [exact I|rewrite EP; discriminate|rewrite EP; reflexivity|apply incl_nil_l|keep|intros s' H; exact TP].
  - (* PSwing *)
    destruct T as (TB & TN & TZ & TA). apply sim_silent. cas I.
    + apply (inv_same s c th q t); [exact I|rewrite EP; discriminate|rewrite EP; reflexivity|apply incl_nil_l| |intros s' H; exact TA].
      right. rewrite <- TN, <- ET. apply (tail_next _ _ _ _ I). congruence.
    + apply (inv_same s c th q t); [exact I|rewrite EP; discriminate|rewrite EP; reflexivity|apply incl_nil_l|keep|intros s' H; exact TA].
  - (* DHead *)
    apply sim_silent. apply (inv_same s c th q t); [exact I|rewrite EP; discriminate|rewrite EP; reflexivity|apply incl_nil_l|keep|]. intros s' H.
    pose proof (v_head _ _ _ _ I) as HH. pose proof (chain_nodup _ _ _ _ I) as D. pose proof (last_in _ _ _ _ I) as (LI & _).
    destruct c as [|a d]; [destruct LI|]. cbn [hd] in HH. subst a. inversion D. split; [apply H, h_chain; left; reflexivity|]. split; [assumption|exact T].
  - (* DNext *)
    destruct T as (TB & TC & TA). rewrite (proj2 (mem_in _ _) (holds_live _ _ _ _ _ _ I TB)).
    destruct (nxt s h =? 0) eqn:E; [apply Nat.eqb_eq in E|apply Nat.eqb_neq in E].
    + destruct (holds_zero _ _ _ _ _ _ I TB E) as (Eh & Ih).
      assert (Q : q = []).
      { pose proof (v_items _ _ _ _ I) as V. destruct c as [|a [|b d]]; [destruct Ih|inversion V; reflexivity|]. exfalso. apply TC. cbn [List.tl]. rewrite Eh.
        change (last (a :: b :: d) 0) with (last (b :: d) 0). destruct (linked_tl _ _ _ (v_link _ _ _ _ I)) as (L & _); [discriminate|]. apply (linked_last _ _ L). }
      subst q. eapply sim_one; [apply a_empty; exact TA|].
      apply (inv_local s c th _ t); [exact I|apply (nonidle_pinned _ _ _ _ _ I); rewrite EP; discriminate|rewrite EP; reflexivity|apply incl_nil_l|keep|reflexivity].
    + apply sim_silent. apply (inv_same s c th q t); [exact I|rewrite EP; discriminate|rewrite EP; reflexivity|apply incl_nil_l|keep|]. intros s' H.
      split; [apply H; exact TB|]. auto.
  - (* DSwing *)
    destruct T as (TB & TC & TN & TZ & TA). destruct (head s =? h) eqn:E; [apply Nat.eqb_eq in E|].
    + assert (P : In t (pinned s)) by (apply (nonidle_pinned _ _ _ _ _ I); rewrite EP; discriminate).
      pose proof (v_head _ _ _ _ I) as HH. pose proof (chain_nodup _ _ _ _ I) as D. pose proof (last_in _ _ _ _ I) as (LI & LZ).
      destruct c as [|a [|b d]] eqn:Ec; [destruct LI| |]; cbn [hd] in HH; rewrite E in HH; subst a.
      { exfalso. cbn [last] in LZ. congruence. }
      pose proof (v_link _ _ _ _ I) as L. destruct L as (LE & L). rewrite TN in LE. subst b.
      pose proof (v_items _ _ _ _ I) as VI. cbn [List.tl] in VI. inversion VI as [|? v ? q' V1 V2]; subst q.
      eapply (sim_one _ _ _ _ _ (x :: d)); [apply a_deq; exact TA|].
      unfold set_pc, set_head. cbn [live nxt dat head tail pinned retired pcs]. set (s' := MkSt A _ _ _ _ _ _ _ _).
      inversion D as [|? ? Dh Dd]; clear D. inversion Dd as [|? ? Dx Ddd].
      assert (NRh : ~ In h (map fst (retired s))). { intros R. destruct (retired_out _ _ _ _ I h R) as (X & _). apply X. left. reflexivity. }
      assert (HM : forall u z, holds s (h :: x :: d) u z -> holds s' (x :: d) u z).
      { intros u z. apply hmono.
        - intros y [Y|Y]; [|left; exact Y]. subst y. right. split; [|split; cbn [s' nxt]; rewrite TN; [exact TZ|left; reflexivity]].
          split; [apply (chain_live _ _ _ _ h I); left; reflexivity|]. intros B R. exfalso. apply NRh. apply in_map_iff. exists (h, B). auto.
        - intros y Y NZ. split; [exact Y|reflexivity]. }
      constructor; cbn [s' live nxt dat head tail pinned retired pcs].
      * reflexivity.
      * exact L.
      * rewrite (v_perm _ _ _ _ I). unfold owners. cbn [s' pinned pcs].
        destruct (owners_split (pcs s) (pinned s) t P (v_pin _ _ _ _ I)) as (o & E1 & E2). rewrite E1, E2, EP. cbn [own app].
        change (x :: d ++ h :: o ++ map fst (retired s)) with ((x :: d) ++ h :: (o ++ map fst (retired s))). rewrite <- Permutation_middle. apply Permutation_refl.
      * exact (v_nodup _ _ _ _ I).
      * exact (v_zero _ _ _ _ I).
      * exact (v_pin _ _ _ _ I).
      * intros u N. rewrite fup_other; [apply (v_idle _ _ _ _ I); exact N|]. intros ->. contradiction.
      * exact (v_blk _ _ _ _ I).
      * destruct (v_tail _ _ _ _ I) as ([J|(u & h' & x' & Eu & Eh)] & K); (split; [|exact K]).
        -- destruct J as [J|J]; [|left; exact J]. right. exists t, h, x. rewrite fup_same. auto.
        -- right. exists u, h', x'. rewrite fup_other; [auto|]. intros ->. destruct Eu; congruence.
      * exact V2.
      * intros u. destruct (Nat.eq_dec u t) as [Q|Q].
        -- subst u. rewrite !fup_same. split; [exact TN|]. split; [exact TZ|]. split; [apply h_chain; left; reflexivity|]. split; [exact Dx|]. exists v. auto.
        -- rewrite !fup_other by exact Q. apply (tinv_frame s (h :: x :: d) s' (x :: d) u); [| | | | |apply (v_th _ _ _ _ I)].
           ++ intros z Z. split; [apply HM; exact Z|reflexivity].
           ++ intros m OM. auto.
           ++ intros z _ K Ez. apply K. exact Ez.
           ++ reflexivity.
           ++ intros y _ NY Y. apply NY. right. exact Y.
      * assert (U : forall u, u <> t -> ~ In x (pend (pcs s u))).
        { intros u Nu X. pose proof (v_th _ _ _ _ I u) as Tu. apply (pend_tl _ _ _ _ I u x X). left. reflexivity. }
        intros u u' y Y Y'. destruct (Nat.eq_dec u t) as [Q|Q], (Nat.eq_dec u' t) as [Q'|Q']; [congruence| | |].
        -- subst u. rewrite fup_same in Y. rewrite fup_other in Y' by exact Q'. cbn [pend In] in Y. destruct Y as [<-|[]]. destruct (U u' Q' Y').
        -- subst u'. rewrite fup_same in Y'. rewrite fup_other in Y by exact Q. cbn [pend In] in Y'. destruct Y' as [<-|[]]. destruct (U u Q Y).
        -- rewrite fup_other in Y, Y' by assumption. exact (v_pend _ _ _ _ I u u' y Y Y').
    + apply sim_silent. apply (inv_same s c th q t); [exact I|rewrite EP; discriminate|rewrite EP; reflexivity|apply incl_nil_l|keep|intros s' H; exact TA].
  - (* DTail *)
    destruct T as (TN & TZ & TB & TC & v & TD & TA). apply sim_silent. destruct (h =? tail s) eqn:E; [apply Nat.eqb_eq in E|apply Nat.eqb_neq in E].
    + apply (inv_same s c th q t); [exact I|rewrite EP; discriminate|rewrite EP; reflexivity|rewrite EP; apply incl_refl| |].
      * left. split; [reflexivity|]. intros h' x' [Q|Q] _; rewrite EP in Q; [injection Q as <- <-; auto|discriminate Q].
      * intros s' H. split; [exact TN|]. split; [exact TZ|]. split; [apply H; exact TB|]. split; [exact TC|]. exists v. auto.
    + apply (inv_same s c th q t); [exact I|rewrite EP; discriminate|rewrite EP; reflexivity|rewrite EP; apply incl_refl| |].
      * left. split; [reflexivity|]. intros h' x' [Q|Q] Eh; rewrite EP in Q; [injection Q as <- <-; contradiction|discriminate Q].
      * intros s' H. split; [exact TN|]. split; [exact TZ|]. split; [auto|]. split; [apply H; exact TB|]. split; [exact TC|]. exists v. auto.
  - (* DFix *)
    destruct T as (TN & TZ & TB & TC & v & TD & TA). apply sim_silent.
    assert (OH : In h (own (pcs s t))) by (rewrite EP; left; reflexivity). destruct (owned_out _ _ _ _ I t h OH) as (NC & _).
    cas I.
    + assert (EX : x = last c 0) by (rewrite <- TN, <- ET; apply (tail_next _ _ _ _ I); congruence).
      apply (inv_same s c th q t); [exact I|rewrite EP; discriminate|rewrite EP; reflexivity|rewrite EP; apply incl_refl|right; exact EX|].
      intros s' H. split; [exact TN|]. split; [exact TZ|]. split; [|split; [apply H; exact TB|split; [exact TC|exists v; auto]]].
      cbn [s' tail]. intros Q. apply NC. rewrite <- Q, EX. apply (last_in _ _ _ _ I).
    + apply (inv_same s c th q t); [exact I|rewrite EP; discriminate|rewrite EP; reflexivity|rewrite EP; apply incl_refl| |].
      * left. split; [reflexivity|]. intros h' x' [Q|Q] Eh; rewrite EP in Q; [discriminate Q|injection Q as <- <-; congruence].
      * intros s' H. split; [exact TN|]. split; [exact TZ|]. split; [exact ET|]. split; [apply H; exact TB|]. split; [exact TC|]. exists v. auto.
  - (* DRetire *)
    destruct T as (TN & TZ & TT & TB & TC & v & TD & TA).
    assert (P : In t (pinned s)) by (apply (nonidle_pinned _ _ _ _ _ I); rewrite EP; discriminate).
    assert (OH : In h (own (pcs s t))) by (rewrite EP; left; reflexivity). destruct (owned_out _ _ _ _ I t h OH) as (NC & NR).
    rewrite (proj2 (mem_in _ _) (owned_live _ _ _ _ I t h OH)), (proj2 (mem_out _ _) NR). cbn [andb negb]. apply sim_silent.
    unfold set_pc. cbn [live nxt dat head tail pinned retired pcs]. set (s' := MkSt A _ _ _ _ _ _ _ _).
    assert (HM : forall u z, In u (pinned s) -> holds s c u z -> holds s' c u z).
    { intros u z Pu. apply hmono; [auto|]. intros y (Y1 & Y2) NZ. split; [|reflexivity]. split; [exact Y1|]. intros B [R|R]; [|exact (Y2 B R)].
      injection R as _ <-. exact Pu. }
    constructor; cbn [s' live nxt dat head tail pinned retired pcs].
    + exact (v_head _ _ _ _ I).
    + exact (v_link _ _ _ _ I).
    + rewrite (v_perm _ _ _ _ I). unfold owners. cbn [s' pinned pcs map fst].
      destruct (owners_split (pcs s) (pinned s) t P (v_pin _ _ _ _ I)) as (o & E1 & E2). rewrite E1, E2, EP. cbn [own app].
      apply Permutation_app_head. apply Permutation_middle.
    + exact (v_nodup _ _ _ _ I).
    + exact (v_zero _ _ _ _ I).
    + exact (v_pin _ _ _ _ I).
    + intros u N. rewrite fup_other; [apply (v_idle _ _ _ _ I); exact N|]. intros ->. contradiction.
    + intros a B u [R|R] U; [injection R as _ <-; exact U|exact (v_blk _ _ _ _ I a B u R U)].
    + destruct (v_tail _ _ _ _ I) as ([J|(u & h' & x' & Eu & Eh)] & K); (split; [|exact K]); [left; exact J|].
      right. exists u, h', x'. rewrite fup_other; [auto|]. intros ->. destruct Eu; congruence.
    + exact (v_items _ _ _ _ I).
    + intros u. destruct (Nat.eq_dec u t) as [Q|Q].
      * subst u. rewrite !fup_same. split; [apply HM; [exact P|exact TB]|]. split; [exact TC|]. exists v. auto.
      * rewrite !fup_other by exact Q. destruct (in_dec Nat.eq_dec u (pinned s)) as [Pu|Pu].
        -- apply (tinv_frame s c s' c u); [| | | | |apply (v_th _ _ _ _ I)]; auto.
        -- pose proof (v_th _ _ _ _ I u) as Tu. rewrite (v_idle _ _ _ _ I u Pu) in *. exact Tu.
    + intros u u' y Y Y'. apply (v_pend _ _ _ _ I u u' y); eapply pend_sub; try eassumption; rewrite EP; apply incl_refl.
  - (* DRead *)
    destruct T as (TB & TC & v & TD & TA).
    assert (P : In t (pinned s)) by (apply (nonidle_pinned _ _ _ _ _ I); rewrite EP; discriminate).
    rewrite (proj2 (mem_in _ _) (holds_live _ _ _ _ _ _ I TB)), TD. apply sim_silent.
    unfold set_pc. cbn [live nxt dat head tail pinned retired pcs]. set (s' := MkSt A _ _ _ _ _ _ _ _).
    constructor; cbn [s' live nxt dat head tail pinned retired pcs]; try apply I.
    + rewrite (v_perm _ _ _ _ I). unfold owners. cbn [s' pinned pcs].
      destruct (owners_split (pcs s) (pinned s) t P (v_pin _ _ _ _ I)) as (o & E1 & E2). rewrite E1, E2, EP. apply Permutation_refl.
    + intros u N. rewrite fup_other; [apply (v_idle _ _ _ _ I); exact N|]. intros ->. contradiction.
    + destruct (v_tail _ _ _ _ I) as ([J|(u & h' & x' & Eu & Eh)] & K); (split; [|exact K]); [left; exact J|].
      right. exists u, h', x'. rewrite fup_other; [auto|]. intros ->. destruct Eu; congruence.
    + pose proof (v_items _ _ _ _ I) as VI. clear - VI TC. induction VI as [|a w l l' V VI IH]; [constructor|]. cbn [In] in TC.
      constructor; [rewrite fup_other by (intros ->; tauto); exact V|apply IH; tauto].
    + intros u. destruct (Nat.eq_dec u t) as [Q|Q].
      * subst u. rewrite fup_same. exact TA.
      * rewrite fup_other by exact Q. apply (tinv_frame s c s' c u); [| | | | |apply (v_th _ _ _ _ I)].
        -- intros z Z. split; [|reflexivity]. revert Z. apply hmono; auto.
        -- intros m OM. split; [reflexivity|]. split; [|auto]. intros Z. cbn [s' dat]. apply fup_other. intros ->.
           destruct (holds_zero _ _ _ _ _ _ I TB Z) as (_ & X). destruct (owned_out _ _ _ _ I u x OM). contradiction.
        -- auto.
        -- intros y Y. cbn [s' dat]. apply fup_other. intros ->. apply Q. apply (v_pend _ _ _ _ I u t x Y). rewrite EP. left. reflexivity.
        -- auto.
    + intros u u' y Y Y'. apply (v_pend _ _ _ _ I u u' y); eapply pend_sub; try eassumption; rewrite EP; apply incl_nil_l.
  - (* PRet *)
    eapply sim_one; [apply a_ret; exact T|].
    apply (inv_local s c th _ t); [exact I|apply (nonidle_pinned _ _ _ _ _ I); rewrite EP; discriminate|rewrite EP; reflexivity|apply incl_nil_l|keep|reflexivity].
Qed.

Lemma forallb_filter_id' {B} (f : B -> bool) l : (filter f l = l) <-> (forall x, In x l -> f x = true).
Proof.
  induction l as [|a l IH]; [split; [intros _ x []|reflexivity]|]. cbn [filter]. split.
  - intros E x [<-|X].
    + destruct (f a) eqn:F; [reflexivity|]. exfalso. assert (L : length (filter f l) <= length l).
      { clear. induction l as [|b l IH]; [cbn; lia|]. cbn [filter]. destruct (f b); cbn [length]; lia. }
      rewrite E in L. cbn in L. lia.
    + apply IH; [|exact X]. destruct (f a); [congruence|]. exfalso. assert (L : length (filter f l) <= length l).
      { clear. induction l as [|b l IH]; [cbn; lia|]. cbn [filter]. destruct (f b); cbn [length]; lia. }
      rewrite E in L. cbn in L. lia.
  - intros H. rewrite (H a) by (left; reflexivity). f_equal. apply IH. intros x X. apply H. right. exact X.
Qed.
Lemma flat_remove (f : nat -> pc) l t : own (f t) = [] -> flat_map (fun u => own (f u)) (remove Nat.eq_dec t l) = flat_map (fun u => own (f u)) l.
Proof.
  intros E. induction l as [|u l IH]; [reflexivity|]. cbn [remove]. destruct (Nat.eq_dec t u) as [Q|Q].
  - subst u. cbn [flat_map]. rewrite E. exact IH.
  - cbn [flat_map]. rewrite IH. reflexivity.
Qed.
Lemma nodup_remove l (t : nat) : NoDup l -> NoDup (remove Nat.eq_dec t l).
Proof.
  intros D. induction D as [|u l N D IH]; [constructor|]. cbn [remove]. destruct (Nat.eq_dec t u); [exact IH|]. constructor; [|exact IH].
  intros X. apply in_remove in X. tauto.
Qed.
Lemma remove_out (l : list nat) a : ~ In a l -> remove Nat.eq_dec a l = l.
Proof. intros N. apply notin_remove. exact N. Qed.
Lemma remove_perm l l1 (a : nat) l2 : Permutation l (l1 ++ a :: l2) -> NoDup l -> Permutation (remove Nat.eq_dec a l) (l1 ++ l2).
Proof.
  intros P D. pose proof (Permutation_NoDup P D) as D'. pose proof (NoDup_remove_2 _ _ _ D') as N. pose proof (NoDup_remove_1 _ _ _ D') as D1.
  apply NoDup_Permutation; [apply nodup_remove; exact D|exact D1|]. intros z. split.
  - intros X. apply in_remove in X. destruct X as (X & NZ). apply (Permutation_in _ P) in X. rewrite in_app_iff in *. cbn [In] in X. destruct X as [X|[X|X]]; [tauto|congruence|tauto].
  - intros X. apply in_in_remove; [intros ->; contradiction|]. apply (Permutation_in _ (Permutation_sym P)). rewrite in_app_iff in *. cbn [In]. tauto.
Qed.

Lemma sim_step s c th q t a : Inv s c th q -> sim s c th q (step A s t a).
Proof.
  intros I. destruct a as [| |o|a| |a]; cbn [step]; [| | | |apply sim_run; exact I|].
  - (* pin *)
    destruct (pcs s t) eqn:EP; try exact Logic.I. destruct (mem t (pinned s)) eqn:M; [exact Logic.I|]. apply mem_out in M. apply sim_silent. set (s' := MkSt A _ _ _ _ _ _ _ _).
    constructor; cbn [s' live nxt dat head tail pinned retired pcs]; try apply I.
    + unfold owners. cbn [s' pinned pcs flat_map]. rewrite EP. cbn [own app]. exact (v_perm _ _ _ _ I).
    + constructor; [exact M|exact (v_pin _ _ _ _ I)].
    + intros u N. apply (v_idle _ _ _ _ I). intros X. apply N. right. exact X.
    + intros a B u R U. right. exact (v_blk _ _ _ _ I a B u R U).
    + intros u. apply (tinv_frame s c s' c u); [| | | | |apply (v_th _ _ _ _ I)]; auto.
      intros z Z. split; [|reflexivity]. revert Z. apply hmono; auto.
  - (* unpin *)
    destruct (pcs s t) eqn:EP; try exact Logic.I. destruct (mem t (pinned s)) eqn:M; [|exact Logic.I]. apply sim_silent. set (s' := MkSt A _ _ _ _ _ _ _ _).
    constructor; cbn [s' live nxt dat head tail pinned retired pcs]; try apply I.
    + unfold owners. cbn [s' pinned pcs]. rewrite flat_remove by (rewrite EP; reflexivity). rewrite map_map. cbn [fst]. exact (v_perm _ _ _ _ I).
    + apply nodup_remove. exact (v_pin _ _ _ _ I).
    + intros u N. destruct (Nat.eq_dec u t) as [Q|Q]; [subst u; exact EP|]. apply (v_idle _ _ _ _ I). intros X. apply N. apply in_in_remove; assumption.
    + intros a B u R U. apply in_map_iff in R. destruct R as ((a', B') & Q & R). injection Q as <- <-. apply in_remove in U. destruct U as (U & N).
      apply in_in_remove; [exact N|]. exact (v_blk _ _ _ _ I a' B' u R U).
    + intros u. destruct (Nat.eq_dec u t) as [Q|Q].
      * subst u. pose proof (v_th _ _ _ _ I t) as Tt. rewrite EP in *. exact Tt.
      * apply (tinv_frame s c s' c u); [| | | | |apply (v_th _ _ _ _ I)]; auto.
        intros z Z. split; [|reflexivity]. revert Z. apply hmono; [auto|]. intros y (Y1 & Y2) _. split; [|reflexivity]. split; [exact Y1|].
        intros B R. cbn [s' retired] in R. apply in_map_iff in R. destruct R as ((a', B') & E & R). injection E as -> <-. apply in_in_remove; [exact Q|]. exact (Y2 B' R).
  - (* call *)
    destruct (pcs s t) eqn:EP; try exact Logic.I. destruct (mem t (pinned s)) eqn:M; [|exact Logic.I]. apply mem_in in M.
    pose proof (v_th _ _ _ _ I t) as T. rewrite EP in T. cbn [tinv] in T. eapply sim_one; [apply a_call; exact T|].
    unfold set_pc. apply (inv_local s c th q t); [exact I|exact M|rewrite EP; destruct o; reflexivity|destruct o; apply incl_nil_l|keep|intros s' _; destruct o; reflexivity].
  - (* alloc *)
    destruct (pcs s t) as [|v| | | | | | | | | | | | | ] eqn:EP; try exact Logic.I. destruct ((a =? 0) || mem a (live s)) eqn:M; [exact Logic.I|]. apply orb_false_iff in M. destruct M as (A0 & M).
    apply Nat.eqb_neq in A0. apply mem_out in M. pose proof (v_th _ _ _ _ I t) as T. rewrite EP in T. cbn [tinv] in T. apply sim_silent.
    assert (P : In t (pinned s)) by (apply (nonidle_pinned _ _ _ _ _ I); rewrite EP; discriminate).
    unfold set_pc. cbn [live nxt dat head tail pinned retired pcs]. set (s' := MkSt A _ _ _ _ _ _ _ _).
    assert (NX : forall z, In z (live s) -> nxt s' z = nxt s z /\ dat s' z = dat s z).
    { intros z Z. cbn [s' nxt dat]. rewrite !fup_other; [auto| |]; intros ->; contradiction. }
    assert (HM : forall u z, holds s c u z -> holds s' c u z /\ (nxt s z <> 0 -> nxt s' z = nxt s z)).
    { intros u z Z. split; [|intros _; apply NX; exact (holds_live _ _ _ _ _ _ I Z)]. revert Z. apply hmono; [auto|]. intros y (Y1 & Y2) _.
      split; [|apply NX; exact Y1]. split; [right; exact Y1|exact Y2]. }
    constructor; cbn [s' live nxt dat head tail pinned retired pcs]; try apply I.
    + apply (linked_ext (nxt s)); [|exact (v_link _ _ _ _ I)]. intros z Z. apply NX. exact (chain_live _ _ _ _ _ I Z).
    + rewrite (v_perm _ _ _ _ I). unfold owners. cbn [s' pinned pcs].
      destruct (owners_split (pcs s) (pinned s) t P (v_pin _ _ _ _ I)) as (o & E1 & E2). rewrite E1, E2, EP. cbn [own app].
      apply Permutation_middle.
    + constructor; [exact M|exact (v_nodup _ _ _ _ I)].
    + intros [X|X]; [congruence|exact (v_zero _ _ _ _ I X)].
    + intros u N. rewrite fup_other; [apply (v_idle _ _ _ _ I); exact N|]. intros ->. contradiction.
    + destruct (v_tail _ _ _ _ I) as (J & K). split.
      * destruct J as [J|(u & h' & x' & Eu & Eh)]; [left; exact J|]. right. exists u, h', x'. rewrite fup_other; [auto|]. intros ->. destruct Eu; congruence.
      * assert (LT : In (tail s) (live s)) by exact (holds_live _ _ _ _ _ _ I (tail_holds _ _ _ _ I t)). destruct K as [K|K]; [left; exact K|right].
        rewrite <- K. apply NX. exact LT.
    + pose proof (v_items _ _ _ _ I) as VI. assert (LT : forall z, In z (List.tl c) -> In z (live s)).
      { intros z Z. apply (chain_live _ _ _ _ _ I). destruct c; [destruct Z|right; exact Z]. }
      clear - VI LT M. induction VI as [|b w l l' V VI IH]; [constructor|]. constructor.
      * rewrite fup_other; [exact V|]. intros ->. apply M, LT. left. reflexivity.
      * apply IH. intros z Z. apply LT. right. exact Z.
    + intros u. destruct (Nat.eq_dec u t) as [Q|Q].
      * subst u. rewrite fup_same. split; [apply fup_same|]. exists v. cbn [s' dat]. rewrite fup_same. auto.
      * rewrite fup_other by exact Q. apply (tinv_frame s c s' c u); [apply HM| | | | |apply (v_th _ _ _ _ I)].
        -- intros m OM. destruct (NX m (owned_live _ _ _ _ I u m OM)) as (X1 & X2). auto.
        -- auto.
        -- intros x X. apply NX. apply (holds_live s c th q u x I). apply (past_holds _ _ _ _ I). apply past_pend. exact X.
        -- auto.
    + intros u u' y Y Y'. apply (v_pend _ _ _ _ I u u' y); eapply pend_sub; try eassumption; rewrite EP; apply incl_nil_l.
  - (* free *)
    destruct (existsb _ (retired s)) eqn:M; [|exact Logic.I]. apply existsb_exists in M. destruct M as ((a', B) & R & M). cbn [fst snd] in M.
    apply andb_true_iff in M. destruct M as (M1 & M2). apply Nat.eqb_eq in M1. subst a'. destruct B; [|discriminate M2]. apply sim_silent. set (s' := MkSt A _ _ _ _ _ _ _ _).
    assert (RI : In a (map fst (retired s))) by (apply in_map_iff; exists (a, []); auto). destruct (retired_out _ _ _ _ I a RI) as (NC & La).
    assert (HM : forall u z, holds s c u z -> holds s' c u z /\ (nxt s z <> 0 -> nxt s' z = nxt s z)).
    { intros u z Z. split; [|reflexivity]. revert Z. apply hmono; [auto|]. intros y (Y1 & Y2) _. split; [|reflexivity]. split.
      - cbn [s' live]. apply in_in_remove; [|exact Y1]. intros ->. destruct (Y2 [] R).
      - intros B X. cbn [s' retired] in X. apply filter_In in X. apply Y2. tauto. }
    assert (FM : exists r1 r2, map fst (retired s) = r1 ++ a :: r2 /\ map fst (filter (fun x => negb (fst x =? a)) (retired s)) = r1 ++ r2).
    { assert (D : NoDup (map fst (retired s))) by (pose proof (parts_nodup _ _ _ _ I) as D; apply NoDup_app_l, NoDup_app_l in D; exact D).
      clear - D RI. induction (retired s) as [|(b, B) r IH]; [destruct RI|]. cbn [map fst filter] in *. inversion D as [|? ? D1 D2]; subst. destruct (b =? a) eqn:E; cbn [negb].
      - apply Nat.eqb_eq in E. subst b. exists [], (map fst r). split; [reflexivity|]. cbn [app].
        rewrite (proj2 (forallb_filter_id' _ _)); [reflexivity|].
        intros x X. apply negb_true_iff, Nat.eqb_neq. intros Q. apply D1. rewrite <- Q. apply in_map. exact X.
      - apply Nat.eqb_neq in E. destruct RI as [X|X]; [congruence|]. destruct (IH X D2) as (r1 & r2 & E1 & E2). exists (b :: r1), r2. cbn [map fst]. rewrite E1, E2. auto. }
    destruct FM as (r1 & r2 & F1 & F2).
    constructor; cbn [s' live nxt dat head tail pinned retired pcs]; try apply I.
    + change (owners s') with (owners s). rewrite F2. rewrite !app_assoc. apply remove_perm; [|exact (v_nodup _ _ _ _ I)].
      rewrite (v_perm _ _ _ _ I), F1, !app_assoc. apply Permutation_refl.
    + apply nodup_remove. exact (v_nodup _ _ _ _ I).
    + intros X. apply in_remove in X. apply (v_zero _ _ _ _ I). tauto.
    + intros b B u X U. apply filter_In in X. apply (v_blk _ _ _ _ I b B u); tauto.
    + intros u. apply (tinv_frame s c s' c u); [apply HM| | | | |apply (v_th _ _ _ _ I)]; auto.
Qed.

Lemma inv_init : Inv (init A) [1] (fun _ => AIdle A) [].
Proof.
  constructor; cbn [init live nxt dat head tail pinned retired pcs hd linked last List.tl owners flat_map map app].
  - reflexivity.
  - reflexivity.
  - apply Permutation_refl.
  - constructor; [intros []|constructor].
  - intros [X|[]]. discriminate X.
  - constructor.
  - reflexivity.
  - intros a B t [].
  - split; [left; left; reflexivity|left; reflexivity].
  - constructor.
  - reflexivity.
  - intros t t' x [].
Qed.

Lemma asteps_trans s e f s' e' f' s'' : asteps A s e f s' -> asteps A s' e' f' s'' -> asteps A s (e ++ e') (f ++ f') s''.
Proof.
  intros S. induction S as [s|s e f s1 e1 f1 s2 S1 S IH]; intros S'; [exact S'|]. rewrite <- !app_assoc. eapply as_step; [exact S1|apply IH; exact S'].
Qed.

Lemma sim_sched sch : forall s c th q, Inv s c th q -> sim s c th q (run A s sch).
Proof.
  induction sch as [|(t, a) sch IH]; intros s c th q I; cbn [run]; [apply sim_silent; exact I|].
  pose proof (sim_step s c th q t a I) as S. destruct (step A s t a) as [| |s1 e1]; [exact S|exact S|].
  destruct S as (c1 & th1 & q1 & f1 & S1 & I1). pose proof (IH s1 c1 th1 q1 I1) as S2. destruct (run A s1 sch) as [| |s2 e2]; [exact S2|exact S2|].
  destruct S2 as (c2 & th2 & q2 & f2 & S2 & I2). exists c2, th2, q2, (f1 ++ f2). split; [|exact I2]. eapply asteps_trans; eassumption.
Qed.
End Proofs.
