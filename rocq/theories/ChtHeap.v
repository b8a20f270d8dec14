(** The row index under every schedule: the tree in memory. *)
From Coq Require Import List Arith NArith Bool Lia.
From Verif Require Import MtModel MtSpec MtProofs ChtModel ChtSpec.
Import ListNotations.
Local Open Scope nat_scope.

Lemma fup_same {B} (f : nat -> B) a x : fup f a x a = x.
Proof. unfold fup. rewrite Nat.eqb_refl. reflexivity. Qed.
Lemma fup_other {B} (f : nat -> B) a b x : b <> a -> fup f a x b = f b.
Proof. intros N. unfold fup. apply Nat.eqb_neq in N. rewrite N. reflexivity. Qed.

Section Heap.
Variables K V : Type.
Variable keq : K -> K -> bool.
Hypothesis keq_ok : forall a b, keq a b = true <-> a = b.
Variable hash : K -> N.
Notation elem := (K * V)%type.
Notation heap := (heap K V).
Notation chunk_at := (chunk_at K hash).
Notation sfind := (sfind K V keq).
Notation BNone := (BNone K V).
Notation BLeaf := (BLeaf K V).
Notation BBr := (BBr K V).
Notation mem := (mem K V).
Notation rtd := (rtd K V).
Notation root := (root K V).
Notation next := (next K V).

Definition prefix (k : K) (n : nat) : list nat := map (chunk_at k) (seq 0 n).
Lemma prefix_S k n : prefix k (S n) = prefix k n ++ [chunk_at k n].
Proof. unfold prefix. rewrite seq_S, map_app. reflexivity. Qed.
Lemma prefix_len k n : length (prefix k n) = n.
Proof. unfold prefix. rewrite map_length, seq_length. reflexivity. Qed.
Lemma chunk_at_lt k n : chunk_at k n < 16.
Proof. apply chunk_lt. Qed.
Lemma prefix_inj k n m : prefix k n = prefix k m -> n = m.
Proof. intros E. apply (f_equal (@length nat)) in E. rewrite !prefix_len in E. exact E. Qed.

(** where every branch is, as the slots to follow from the root *)
Definition posn := nat -> list nat.
Definition lpath (pos : posn) (l : loc) : list nat := match l with LRoot => [] | LSlot a i => pos a ++ [i] end.
Definition content (h : heap) (l : loc) : option slot :=
  match l with LRoot => Some (root h, false) | LSlot a i => match mem h a with ChtModel.BBr _ _ f => Some (f i) | _ => None end end.
Definition linked (h : heap) (l : loc) : Prop :=
  match l with LRoot => True | LSlot a i => i < 16 /\ rtd h a = None /\ exists f, mem h a = BBr f end.

Definition later (h : heap) (b : nat) (r : option nat) : Prop :=
  match r with None => rtd h b = None | Some u => forall v, rtd h b = Some v -> u <= v end.
Definition good (p : list nat) (d : list elem) : Prop :=
  d <> [] /\ NoDup (map fst d) /\ (forall e, In e d -> p = prefix (fst e) (length p)) /\ (length p < 16 -> length d = 1).
Definition valid (h : heap) (pos : posn) (p : list nat) (x : ptr) (r : option nat) : Prop :=
  match x with
  | PNull => True
  | PLeaf a => (exists d, mem h a = BLeaf d /\ good p d) /\ later h a r
  | PBr a => (exists f, mem h a = BBr f) /\ pos a = p /\ later h a r
  end.

Record Inv (T : nat) (h : heap) (pos : posn) : Prop := {
  v_next : forall a, next h <= a -> mem h a = BNone /\ rtd h a = None;
  v_time : forall a u, rtd h a = Some u -> u <= T;
  v_root : valid h pos [] (root h) None;
  v_br : forall a f, mem h a = BBr f -> length (pos a) < 16 /\ forall i, i < 16 -> valid h pos (pos a ++ [i]) (fst (f i)) (rtd h a);
  v_frz : forall a f u i, mem h a = BBr f -> rtd h a = Some u -> i < 16 -> snd (f i) = true;
  v_lnk : forall a f, mem h a = BBr f -> rtd h a = None -> exists l g, lpath pos l = pos a /\ linked h l /\ content h l = Some (PBr a, g);
  v_leaf : forall a d, mem h a = BLeaf d -> rtd h a = None -> exists l g, linked h l /\ content h l = Some (PLeaf a, g)
}.

Lemma inv_init T pos : Inv T (MkHeap K V PNull (fun _ => BNone) 0 (fun _ => None)) pos.
Proof. constructor; cbn; intros; try discriminate; auto. Qed.
Lemma inv_time T T' h pos : T <= T' -> Inv T h pos -> Inv T' h pos.
Proof. intros L I. destruct I as [A B C D E F G]. constructor; auto. intros a u R. pose proof (B a u R). lia. Qed.

Lemma snoc_eq {A} (p q : list A) x y : p ++ [x] = q ++ [y] -> p = q /\ x = y.
Proof. apply app_inj_tail. Qed.
Lemma snoc_nil {A} (p : list A) x : p ++ [x] <> [].
Proof. destruct p; discriminate. Qed.

Section Facts.
Variables (T : nat) (h : heap) (pos : posn).
Hypothesis I : Inv T h pos.

Lemma uniq_br : forall n a b fa fb, length (pos a) = n -> mem h a = BBr fa -> mem h b = BBr fb -> rtd h a = None -> rtd h b = None -> pos a = pos b -> a = b.
Proof.
  induction n as [|n IH]; intros a b fa fb L Ma Mb Ra Rb E.
  - destruct (v_lnk _ _ _ I a fa Ma Ra) as (la & ga & Pa & Ka & Ca). destruct (v_lnk _ _ _ I b fb Mb Rb) as (lb & gb & Pb & Kb & Cb).
    destruct (pos a) eqn:Q; [|discriminate L]. destruct la as [|a1 i1]; [|exfalso; exact (snoc_nil _ _ Pa)]. rewrite <- E in Pb. destruct lb as [|b1 j1]; [|exfalso; exact (snoc_nil _ _ Pb)].
    cbn in Ca, Cb. congruence.
  - destruct (v_lnk _ _ _ I a fa Ma Ra) as (la & ga & Pa & Ka & Ca). destruct (v_lnk _ _ _ I b fb Mb Rb) as (lb & gb & Pb & Kb & Cb).
    destruct la as [|a1 i1]; [cbn in Pa; rewrite <- Pa in L; discriminate L|]. destruct lb as [|b1 j1]; [cbn in Pb; rewrite E, <- Pb in L; discriminate L|].
    cbn [lpath] in Pa, Pb. rewrite <- E, <- Pa in Pb. apply snoc_eq in Pb. destruct Pb as (Pb & <-).
    destruct Ka as (_ & Ra1 & f1 & M1). destruct Kb as (_ & Rb1 & g1 & N1).
    assert (X : a1 = b1).
    { apply (IH a1 b1 f1 g1); auto. rewrite <- Pa, app_length in L. cbn in L. lia. }
    subst b1. rewrite N1 in M1. injection M1 as <-. cbn in Ca, Cb. rewrite N1 in Ca, Cb. congruence.
Qed.
Lemma uniq_loc l1 l2 : linked h l1 -> linked h l2 -> lpath pos l1 = lpath pos l2 -> l1 = l2.
Proof.
  destruct l1 as [|a i], l2 as [|b j]; intros K1 K2 E; cbn in E; [reflexivity|exfalso; symmetry in E; exact (snoc_nil _ _ E)|exfalso; exact (snoc_nil _ _ E)|].
  apply snoc_eq in E. destruct E as (E & ->). destruct K1 as (_ & R1 & f & M1). destruct K2 as (_ & R2 & g & M2). rewrite (uniq_br _ a b f g eq_refl M1 M2 R1 R2 E). reflexivity.
Qed.

(** what is in a linked slot *)
Lemma linked_valid l x g : linked h l -> content h l = Some (x, g) -> valid h pos (lpath pos l) x None.
Proof.
  destruct l as [|a i]; cbn [linked content lpath]; intros Lk C; [injection C as <- _; exact (v_root _ _ _ I)|].
  destruct Lk as (Li & R & f & M). rewrite M in C. injection C as C. destruct (v_br _ _ _ I a f M) as (_ & W). specialize (W i Li). rewrite R, C in W. exact W.
Qed.
Lemma linked_len l : linked h l -> length (lpath pos l) <= 16.
Proof.
  destruct l as [|a i]; cbn [linked lpath]; [cbn; lia|]. intros (_ & _ & f & M). destruct (v_br _ _ _ I a f M) as (W & _). rewrite app_length. cbn. lia.
Qed.
Lemma linked_content l : linked h l -> exists x g, content h l = Some (x, g).
Proof. destruct l as [|a i]; cbn [linked content]; [eauto|]. intros (_ & _ & f & M). rewrite M. destruct (f i) as (x, g). eauto. Qed.

Lemma above k : forall n2 l2 n1 l1, linked h l2 -> lpath pos l2 = prefix k n2 -> n1 < n2 -> linked h l1 -> lpath pos l1 = prefix k n1 -> exists b g, content h l1 = Some (PBr b, g).
Proof.
  induction n2 as [|n2 IH]; intros l2 n1 l1 K2 P2 L K1 P1; [lia|].
  destruct l2 as [|a i]; cbn [lpath] in P2; [apply (f_equal (@length nat)) in P2; rewrite prefix_len in P2; discriminate P2|]. rewrite prefix_S in P2. apply snoc_eq in P2. destruct P2 as (P2 & Ei).
  destruct K2 as (_ & R & f & M). destruct (v_lnk _ _ _ I a f M R) as (l' & g & P' & K' & C'). rewrite P2 in P'.
  destruct (Nat.eq_dec n1 n2) as [->|N].
  - rewrite <- P1 in P'. pose proof (uniq_loc _ _ K' K1 P') as E. subst l'. eauto.
  - apply (IH l' n1 l1 K' P'); auto. lia.
Qed.
Lemma uniq_leaf l1 l2 a g1 g2 : linked h l1 -> linked h l2 -> content h l1 = Some (PLeaf a, g1) -> content h l2 = Some (PLeaf a, g2) -> l1 = l2.
Proof.
  intros K1 K2 C1 C2. destruct (linked_valid _ _ _ K1 C1) as ((d & M & G) & _). destruct (linked_valid _ _ _ K2 C2) as ((d' & M' & G') & _).
  rewrite M in M'. injection M' as <-. destruct G as (NE & _ & G & _). destruct G' as (_ & _ & G' & _). destruct d as [|e d]; [congruence|].
  specialize (G e (or_introl eq_refl)). specialize (G' e (or_introl eq_refl)). set (n1 := length (lpath pos l1)) in G. set (n2 := length (lpath pos l2)) in G'.
  destruct (Nat.lt_trichotomy n1 n2) as [X|[X|X]].
  - destruct (above (fst e) n2 l2 n1 l1 K2 G' X K1 G) as (b & g & C). congruence.
  - apply uniq_loc; auto. rewrite G, G', X. reflexivity.
  - destruct (above (fst e) n1 l1 n2 l2 K1 G X K2 G') as (b & g & C). congruence.
Qed.
Lemma uniq_pbr l1 l2 a g1 g2 : linked h l1 -> linked h l2 -> content h l1 = Some (PBr a, g1) -> content h l2 = Some (PBr a, g2) -> l1 = l2.
Proof.
  intros K1 K2 C1 C2. destruct (linked_valid _ _ _ K1 C1) as (_ & P1 & _). destruct (linked_valid _ _ _ K2 C2) as (_ & P2 & _). apply uniq_loc; auto. congruence.
Qed.
Lemma old_lt a : mem h a <> BNone -> a < next h.
Proof. intros N. destruct (Nat.lt_ge_cases a (next h)) as [X|X]; [exact X|]. destruct (v_next _ _ _ I a X) as (E & _). congruence. Qed.
(** an untagged slot belongs to a branch in the tree *)
Lemma untagged_linked a f i x : mem h a = BBr f -> i < 16 -> f i = (x, false) -> linked h (LSlot a i).
Proof.
  intros M Li F. split; [exact Li|]. split; [|eauto]. destruct (rtd h a) as [u|] eqn:R; [|reflexivity]. pose proof (v_frz _ _ _ I a f u i M R Li) as X. rewrite F in X. discriminate X.
Qed.
End Facts.

(** * The map *)
Fixpoint walk (mm : nat -> block K V) (n : nat) (x : ptr) (d : nat) (k : K) : option elem :=
  match x with
  | PNull => None
  | PLeaf a => match mm a with ChtModel.BLeaf _ _ dd => sfind k dd | _ => None end
  | PBr a =>
      match n with
      | 0 => None
      | S n => match mm a with ChtModel.BBr _ _ f => walk mm n (fst (f (chunk_at k d))) (S d) k | _ => None end
      end
  end.
Definition abs (h : heap) (k : K) : option elem := walk (mem h) 16 (root h) 0 k.
Lemma walk_br mm n a d k f : mm a = BBr f -> walk mm (S n) (PBr a) d k = walk mm n (fst (f (chunk_at k d))) (S d) k.
Proof. intros M. cbn [walk]. rewrite M. reflexivity. Qed.
Lemma walk_leaf mm n a d k dd : mm a = BLeaf dd -> walk mm n (PLeaf a) d k = sfind k dd.
Proof. intros M. destruct n; cbn [walk]; rewrite M; reflexivity. Qed.
Lemma walk_null mm n d k : walk mm n PNull d k = None.
Proof. destruct n; reflexivity. Qed.

Lemma walk_at T h pos : Inv T h pos -> forall k d l x g, linked h l -> content h l = Some (x, g) -> lpath pos l = prefix k d -> abs h k = walk (mem h) (16 - d) x d k.
Proof.
  intros I k. induction d as [|d IH]; intros l x g Lk C P.
  - destruct l as [|a i]; [|exfalso; exact (snoc_nil _ _ P)]. cbn in C. injection C as <- _. reflexivity.
  - destruct l as [|a i]; cbn [lpath] in P; [apply (f_equal (@length nat)) in P; rewrite prefix_len in P; discriminate P|]. rewrite prefix_S in P. apply snoc_eq in P. destruct P as (P & Ei).
    destruct Lk as (_ & R & f & M). destruct (v_lnk _ _ _ I a f M R) as (l' & g' & P' & K' & C'). rewrite P in P'. rewrite (IH l' _ _ K' C' P').
    destruct (v_br _ _ _ I a f M) as (Len & _). rewrite P, prefix_len in Len. replace (16 - d) with (S (16 - S d)) by lia. rewrite (walk_br _ _ a d k f M).
    cbn in C. rewrite M in C. injection C as C. rewrite <- Ei, C. reflexivity.
Qed.

(** * Replacing what is in one slot *)
Definition swap (h : heap) (l : loc) (x' : ptr) (blk : option (block K V)) (rx : option nat) (tm : nat) : heap :=
  let h1 := match blk with Some b => alloc K V h b | None => h end in
  let h2 := wr K V h1 l (x', false) in
  match rx with Some a => retire K V h2 tm a | None => h2 end.
Definition swap_pos (h : heap) (pos : posn) (l : loc) (blk : option (block K V)) : posn :=
  match blk with Some _ => fup pos (next h) (lpath pos l) | None => pos end.

Lemma loc_dec (m l : loc) : m = l \/ m <> l.
Proof.
  destruct m as [|a i], l as [|b j]; try (left; reflexivity); try (right; discriminate).
  destruct (Nat.eq_dec a b) as [->|N1]; [|right; congruence]. destruct (Nat.eq_dec i j) as [->|N2]; [left; reflexivity|right; congruence].
Qed.
Lemma onat_dec (m l : option nat) : m = l \/ m <> l.
Proof.
  destruct m as [a|], l as [b|]; try (left; reflexivity); try (right; discriminate). destruct (Nat.eq_dec a b) as [->|N1]; [left; reflexivity|right; congruence].
Qed.

Section SwapRaw.
Variables (h : heap) (pos : posn) (l : loc) (x' : ptr) (blk : option (block K V)) (rx : option nat) (tm : nat).
Notation h' := (swap h l x' blk rx tm).
Lemma raw_h1 a : a <> next h -> mem (match blk with Some b => alloc K V h b | None => h end) a = mem h a.
Proof. intros N. destruct blk; [cbn; apply fup_other; exact N|reflexivity]. Qed.
Lemma raw_mem a : (forall i, l <> LSlot a i) -> mem h' a = mem (match blk with Some b => alloc K V h b | None => h end) a.
Proof.
  intros N. unfold swap. set (h1 := match blk with Some b => alloc K V h b | None => h end). clearbody h1. destruct l as [|b j]; cbn [wr]; [destruct rx; reflexivity|].
  assert (a <> b) by (intros ->; exact (N j eq_refl)). destruct (mem h1 b); destruct rx; cbn; try reflexivity; apply fup_other; assumption.
Qed.
Lemma sw_rtd a : (rx = Some a /\ rtd h' a = Some tm) \/ (rx <> Some a /\ rtd h' a = rtd h a).
Proof.
  assert (R1 : rtd (match blk with Some b => alloc K V h b | None => h end) a = rtd h a) by (destruct blk; reflexivity).
  unfold swap. set (h1 := match blk with Some b => alloc K V h b | None => h end) in *. clearbody h1.
  assert (R2 : rtd (wr K V h1 l (x', false)) a = rtd h1 a) by (destruct l as [|b i]; cbn [wr]; [reflexivity|destruct (mem h1 b); reflexivity]).
  destruct rx as [y|]; [|right; split; [discriminate|congruence]]. cbn [retire ChtModel.rtd]. destruct (Nat.eq_dec a y) as [->|N]; [left; split; [reflexivity|apply fup_same]|].
  right. split; [congruence|]. rewrite fup_other by exact N. congruence.
Qed.
Lemma sw_next : next h' = match blk with Some _ => S (next h) | None => next h end.
Proof.
  assert (R1 : next (match blk with Some b => alloc K V h b | None => h end) = match blk with Some _ => S (next h) | None => next h end) by (destruct blk; reflexivity).
  unfold swap. set (h1 := match blk with Some b => alloc K V h b | None => h end) in *. clearbody h1. destruct l as [|b i]; cbn [wr].
  - destruct rx; exact R1.
  - destruct (mem h1 b); destruct rx; exact R1.
Qed.
Lemma sw_root : root h' = match l with LRoot => x' | _ => root h end.
Proof.
  assert (R1 : root (match blk with Some b => alloc K V h b | None => h end) = root h) by (destruct blk; reflexivity).
  unfold swap. set (h1 := match blk with Some b => alloc K V h b | None => h end) in *. clearbody h1. destruct l as [|b i]; cbn [wr].
  - destruct rx; reflexivity.
  - destruct (mem h1 b); destruct rx; exact R1.
Qed.
Hypothesis fresh : forall a, next h <= a -> mem h a = BNone.
Lemma sw_mem_br a f : mem h a = BBr f -> exists f', mem h' a = BBr f' /\ (forall i, l = LSlot a i -> f' i = (x', false)) /\ (forall i, l <> LSlot a i -> f' i = f i).
Proof.
  intros M. assert (N : a <> next h) by (intros ->; rewrite fresh in M by apply le_n; discriminate M).
  pose proof (raw_h1 a N) as M1. rewrite M in M1. assert (D : (forall i, l <> LSlot a i) \/ exists j, l = LSlot a j).
  { destruct l as [|b j]; [left; discriminate|]. destruct (Nat.eq_dec a b) as [->|Nb]; [right; eauto|left; congruence]. }
  destruct D as [D|(j & D)].
  - exists f. rewrite raw_mem by exact D. split; [exact M1|]. split; [intros i E; exfalso; exact (D i E)|reflexivity].
  - exists (fup f j (x', false)). unfold swap. rewrite D. set (h1 := match blk with Some b => alloc K V h b | None => h end) in *. clearbody h1. cbn [wr]. rewrite M1.
    split; [destruct rx; cbn; apply fup_same|]. split; [intros i E; injection E as ->; apply fup_same|intros i E; apply fup_other; congruence].
Qed.
Hypothesis lk : forall a i, l = LSlot a i -> exists f, mem h a = BBr f.
Lemma raw_lt a : mem h a <> BNone -> a < next h.
Proof. intros N. destruct (Nat.lt_ge_cases a (next h)) as [X|X]; [exact X|]. specialize (fresh a X). congruence. Qed.
Lemma sw_mem_new b : blk = Some b -> mem h' (next h) = b.
Proof.
  intros E. rewrite raw_mem. { rewrite E. cbn. apply fup_same. }
  intros i El. destruct (lk _ _ El) as (f & M). rewrite fresh in M by apply le_n. discriminate M.
Qed.
Lemma sw_mem_same a : a <> next h -> (forall f, mem h a <> BBr f) -> mem h' a = mem h a.
Proof. intros N M. rewrite raw_mem; [apply raw_h1; exact N|]. intros i El. destruct (lk _ _ El) as (f & M'). exact (M f M'). Qed.
Lemma sw_mem_leaf a d : mem h a = BLeaf d -> mem h' a = BLeaf d.
Proof. intros M. rewrite sw_mem_same; [exact M| |congruence]. intros ->. rewrite fresh in M by apply le_n. discriminate M. Qed.
Lemma sw_mem_none a : mem h a = BNone -> (blk = None \/ a <> next h) -> mem h' a = BNone.
Proof.
  intros M O. destruct (Nat.eq_dec a (next h)) as [->|N]; [|rewrite sw_mem_same; [exact M|exact N|congruence]].
  destruct O as [O|O]; [|congruence]. rewrite raw_mem; [rewrite O; exact M|]. intros i El. destruct (lk _ _ El) as (f & M'). congruence.
Qed.
Lemma sw_content_l : content h' l = Some (x', false).
Proof.
  assert (D : l = LRoot \/ exists a i, l = LSlot a i) by (destruct l; eauto). destruct D as [D|(a & i & D)].
  - rewrite D at 2. cbn [content]. rewrite sw_root, D. reflexivity.
  - rewrite D at 2. cbn [content]. destruct (lk a i D) as (f & M). destruct (sw_mem_br a f M) as (f' & M' & H & _). rewrite M', (H i D). reflexivity.
Qed.
Lemma sw_content m : m <> l -> (forall a i, m = LSlot a i -> exists f, mem h a = BBr f) -> content h' m = content h m.
Proof.
  clear lk. intros N O. destruct m as [|a i]; cbn [content].
  - rewrite sw_root. destruct l as [|b j]; [congruence|reflexivity].
  - destruct (O a i eq_refl) as (f & M). destruct (sw_mem_br a f M) as (f' & M' & _ & H). rewrite M', M, H; [reflexivity|congruence].
Qed.
Lemma sw_old a : a <> next h -> swap_pos h pos l blk a = pos a.
Proof. intros L. unfold swap_pos. destruct blk; [apply fup_other; exact L|reflexivity]. Qed.
Lemma sw_lpath m : (forall a i, m = LSlot a i -> exists f, mem h a = BBr f) -> lpath (swap_pos h pos l blk) m = lpath pos m.
Proof. destruct m as [|a i]; intros H; [reflexivity|]. cbn. rewrite sw_old; [reflexivity|]. destruct (H a i eq_refl) as (f & M). intros ->. rewrite fresh in M by apply le_n. discriminate M. Qed.
Lemma sw_pos_new b : blk = Some b -> swap_pos h pos l blk (next h) = lpath pos l.
Proof. intros E. unfold swap_pos. rewrite E. apply fup_same. Qed.
End SwapRaw.

Section Swap.
Variables (T : nat) (h : heap) (pos : posn) (l : loc) (x x' : ptr) (blk : option (block K V)) (rx : option nat).
Hypothesis I : Inv T h pos.
Hypothesis Lk : linked h l.
Hypothesis Cx : content h l = Some (x, false).
Notation N0 := (next h).
Notation h' := (swap h l x' blk rx (S T)).
Notation pos' := (swap_pos h pos l blk).

Lemma Ifresh : forall a, next h <= a -> mem h a = BNone.
Proof. intros a L. exact (proj1 (v_next _ _ _ I a L)). Qed.
Lemma Ilk : forall a i, l = LSlot a i -> exists f, mem h a = BBr f.
Proof. intros a i E. pose proof Lk as W. rewrite E in W. destruct W as (_ & _ & W). exact W. Qed.
Lemma new_rtd : rtd h N0 = None.
Proof. exact (proj2 (v_next _ _ _ I N0 (le_n _))). Qed.
Lemma not_new a : mem h a <> BNone -> a <> N0.
Proof. intros M ->. apply M. apply Ifresh. apply le_n. Qed.

(** what makes a replacement good *)
Hypothesis C1 : valid h' pos' (lpath pos l) x' None.
Hypothesis C2 : forall f, blk = Some (BBr f) -> length (lpath pos l) < 16 /\ x' = PBr N0 /\ forall i, i < 16 -> valid h' pos' (lpath pos l ++ [i]) (fst (f i)) None.
Hypothesis C2' : forall d, blk = Some (BLeaf d) -> x' = PLeaf N0.
Hypothesis C3 : forall y, rx = Some y -> x = PLeaf y \/ x = PBr y.
Hypothesis C4 : forall c f i, x = PBr c -> mem h c = BBr f -> i < 16 -> snd (f i) = true /\
  (forall b, fst (f i) = PBr b -> exists g, blk = Some (BBr g) /\ fst (g i) = PBr b) /\
  (forall b, fst (f i) = PLeaf b -> x' = PLeaf b \/ exists g, blk = Some (BBr g) /\ fst (g i) = PLeaf b).
Hypothesis C5 : forall a, x = PLeaf a -> rx = None -> exists g i, blk = Some (BBr g) /\ i < 16 /\ fst (g i) = PLeaf a.
Hypothesis C6 : forall c, x = PBr c -> rx = Some c.

Lemma x_valid : valid h pos (lpath pos l) x None.
Proof. exact (linked_valid T h pos I l x false Lk Cx). Qed.
Lemma x_leaf a : x = PLeaf a -> exists d, mem h a = BLeaf d /\ good (lpath pos l) d /\ rtd h a = None.
Proof. intros E. pose proof x_valid as W. rewrite E in W. destruct W as ((d & M & G) & R). exists d. auto. Qed.
Lemma x_br a : x = PBr a -> exists f, mem h a = BBr f /\ pos a = lpath pos l /\ rtd h a = None.
Proof. intros E. pose proof x_valid as W. rewrite E in W. destruct W as ((f & M) & P & R). exists f. auto. Qed.
Lemma rx_rtd y : rx = Some y -> rtd h y = None /\ mem h y <> BNone.
Proof. intros E. destruct (C3 y E) as [Q|Q]; [destruct (x_leaf y Q) as (d & M & _ & R)|destruct (x_br y Q) as (f & M & _ & R)]; split; congruence. Qed.
Lemma rx_br c f : rx = Some c -> mem h c = BBr f -> x = PBr c.
Proof. intros E M. destruct (C3 c E) as [Q|Q]; [|exact Q]. destruct (x_leaf c Q) as (d & M' & _). congruence. Qed.
(** the branch of the slot stays *)
Lemma l_not_rx a i : l = LSlot a i -> rx <> Some a.
Proof.
  intros E Er. destruct (Ilk a i E) as (f & M). pose proof (rx_br a f Er M) as Ex. destruct (x_br a Ex) as (_ & _ & P & _). rewrite E in P. cbn in P.
  apply (f_equal (@length nat)) in P. rewrite app_length in P. cbn in P. lia.
Qed.
Lemma rtd_keep a : rx <> Some a -> rtd h' a = rtd h a.
Proof. intros N. destruct (sw_rtd h l x' blk rx (S T) a) as [(E & _)|(_ & E)]; [congruence|exact E]. Qed.
Lemma rtd_now a : rx = Some a -> rtd h' a = Some (S T).
Proof. intros N. destruct (sw_rtd h l x' blk rx (S T) a) as [(_ & E)|(E & _)]; [exact E|congruence]. Qed.
Lemma rtd_before a u : rtd h a = Some u -> rx <> Some a.
Proof. intros R E. destruct (rx_rtd a E) as (R' & _). congruence. Qed.
Lemma rtd_none a : rtd h' a = None -> rx <> Some a /\ rtd h a = None.
Proof. intros R. destruct (sw_rtd h l x' blk rx (S T) a) as [(_ & E)|(E & E')]; [congruence|split; [exact E|congruence]]. Qed.
Lemma new_not_rx : rx <> Some N0.
Proof. intros E. destruct (rx_rtd N0 E) as (_ & M). exact (not_new N0 M eq_refl). Qed.
Lemma linked_old m : linked h m -> (forall a i, m = LSlot a i -> rx <> Some a) -> linked h' m.
Proof.
  destruct m as [|a i]; [intros; exact Logic.I|]. intros (Li & R & f & M) N. split; [exact Li|]. specialize (N a i eq_refl). rewrite (rtd_keep a N). split; [exact R|].
  destruct (sw_mem_br h l x' blk rx (S T) Ifresh a f M) as (f' & M' & _). eauto.
Qed.
Lemma linked_l' : linked h' l.
Proof. apply linked_old; [exact Lk|]. intros a i E. exact (l_not_rx a i E). Qed.
Lemma linked_new g i : blk = Some (BBr g) -> i < 16 -> linked h' (LSlot N0 i).
Proof.
  intros Eb Li. split; [exact Li|]. rewrite (rtd_keep N0 new_not_rx). split; [exact new_rtd|]. exists g. exact (sw_mem_new h l x' blk rx (S T) Ifresh Ilk _ Eb).
Qed.
Lemma content_new g i : blk = Some (BBr g) -> content h' (LSlot N0 i) = Some (g i).
Proof. intros Eb. cbn [content]. rewrite (sw_mem_new h l x' blk rx (S T) Ifresh Ilk _ Eb). reflexivity. Qed.
(** old pointers elsewhere stay good *)
Lemma lift p y r : valid h pos p y r -> (forall a, y = PLeaf a \/ y = PBr a -> rx = Some a -> exists u, r = Some u /\ u <= S T) -> valid h' pos' p y r.
Proof.
  intros W O. assert (LA : forall a, y = PLeaf a \/ y = PBr a -> later h a r -> later h' a r).
  { intros a Ea W'. specialize (O a Ea). unfold later in *. destruct (onat_dec rx (Some a)) as [D|D].
    - rewrite (rtd_now a D). destruct (O D) as (u & -> & Lu). intros v E. injection E as <-. exact Lu.
    - rewrite (rtd_keep a D). exact W'. }
  destruct y as [|a|a]; cbn in *; [exact Logic.I| |].
  - destruct W as ((d & M & G) & L). split; [exists d; split; [exact (sw_mem_leaf h l x' blk rx (S T) Ifresh Ilk a d M)|exact G]|]. apply LA; auto.
  - destruct W as ((f & M) & P & L). split; [destruct (sw_mem_br h l x' blk rx (S T) Ifresh a f M) as (f' & M' & _); eauto|]. split; [|apply LA; auto].
    rewrite sw_old; [exact P|]. apply not_new. congruence.
Qed.
Lemma lift_linked m y g : linked h m -> m <> l -> content h m = Some (y, g) -> valid h' pos' (lpath pos m) y None.
Proof.
  intros Km N C. apply lift; [exact (linked_valid T h pos I m y g Km C)|]. intros a Ea Er. exfalso. pose proof (linked_valid T h pos I m y g Km C) as W.
  destruct (C3 a Er) as [E|E].
  - destruct (x_leaf a E) as (d & M & _). pose proof Cx as Cx'. rewrite E in Cx'. destruct Ea as [-> | ->]; [exact (N (uniq_leaf T h pos I m l a g false Km Lk C Cx'))|].
    destruct W as ((f & M') & _). congruence.
  - destruct (x_br a E) as (f & M & _). pose proof Cx as Cx'. rewrite E in Cx'. destruct Ea as [-> | ->]; [|exact (N (uniq_pbr T h pos I m l a g false Km Lk C Cx'))].
    destruct W as ((d & M' & _) & _). congruence.
Qed.
(** every block after the replacement is the new one or an old one *)
Lemma mem_back a : mem h' a <> BNone -> (exists b, blk = Some b /\ a = N0 /\ mem h' a = b) \/ (a <> N0 /\ ((exists d, mem h a = BLeaf d /\ mem h' a = BLeaf d) \/
  exists f f', mem h a = BBr f /\ mem h' a = BBr f' /\ (forall i, l = LSlot a i -> f' i = (x', false)) /\ (forall i, l <> LSlot a i -> f' i = f i))).
Proof.
  intros N. destruct (Nat.eq_dec a N0) as [->|Na].
  - left. destruct blk as [b|] eqn:Eb.
    + exists b. split; [reflexivity|]. split; [reflexivity|]. pose proof (sw_mem_new h l x' (Some b) rx (S T) Ifresh Ilk b eq_refl). assumption.
    + exfalso. apply N. apply sw_mem_none; [exact Ilk|apply Ifresh; apply le_n|left; reflexivity].
  - right. split; [exact Na|]. destruct (mem h a) as [|d|f] eqn:M.
    + exfalso. apply N. apply sw_mem_none; [exact Ilk|exact M|right; exact Na].
    + left. exists d. split; [reflexivity|]. exact (sw_mem_leaf h l x' blk rx (S T) Ifresh Ilk a d M).
    + right. destruct (sw_mem_br h l x' blk rx (S T) Ifresh a f M) as (f' & H). exists f, f'. auto.
Qed.

Lemma swap_inv : Inv (S T) h' pos'.
Proof.
  constructor.
  - intros a L. assert (La : N0 <= a /\ (blk = None \/ a <> N0)) by (rewrite sw_next in L; destruct blk; (split; [lia|]); [right; lia|left; reflexivity]). destruct La as (La & O).
    split; [apply sw_mem_none; [exact Ilk|apply Ifresh; exact La|exact O]|].
    rewrite rtd_keep; [exact (proj2 (v_next _ _ _ I a La))|]. intros E. destruct (rx_rtd a E) as (_ & M). apply M. apply Ifresh. exact La.
  - intros a u R. destruct (sw_rtd h l x' blk rx (S T) a) as [(_ & E)|(_ & E)]; rewrite E in R; [injection R as <-; lia|]. pose proof (v_time _ _ _ I a u R). lia.
  - destruct (loc_dec LRoot l) as [D|D].
    + rewrite sw_root. rewrite <- D at 3. rewrite <- D in C1 at 3. exact C1.
    + rewrite sw_root. replace (match l with LRoot => x' | LSlot _ _ => root h end) with (root h) by (destruct l; [congruence|reflexivity]).
      apply (lift_linked LRoot (root h) false); [exact Logic.I|congruence|reflexivity].
  - intros a f M. destruct (mem_back a ltac:(rewrite M; discriminate)) as [(b & Eb & Ea & Mb)|(Na & [(d & _ & Md)|(f0 & f1 & M0 & M1 & H1 & H2)])].
    + subst a. rewrite M in Mb. subst b. destruct (C2 f Eb) as (W1 & W2 & W3). rewrite (sw_pos_new h pos l blk _ Eb). split; [exact W1|].
      intros i Li. rewrite (rtd_keep N0 new_not_rx), new_rtd. exact (W3 i Li).
    + congruence.
    + rewrite M in M1. injection M1 as <-. rewrite (sw_old h pos l blk a Na). destruct (v_br _ _ _ I a f0 M0) as (W1 & W2). split; [exact W1|]. intros i Li. specialize (W2 i Li).
      destruct (rtd h a) as [u|] eqn:R.
      * rewrite (rtd_keep a (rtd_before a u R)), R. rewrite H2.
        -- apply lift; [exact W2|]. intros b _ _. exists u. split; [reflexivity|]. pose proof (v_time _ _ _ I a u R). lia.
        -- intros E. pose proof Lk as W. rewrite E in W. destruct W as (_ & R0 & _). congruence.
      * destruct (onat_dec rx (Some a)) as [D|D].
        -- rewrite (rtd_now a D). rewrite H2 by (intros E; exact (l_not_rx a i E D)).
           assert (W3 : valid h pos (pos a ++ [i]) (fst (f0 i)) (Some (S T))).
           { destruct (fst (f0 i)) as [|b|b]; cbn in *; [exact Logic.I|destruct W2 as (W2 & W3)|destruct W2 as (W2 & Wp & W3)]; repeat split; auto; intros v Ev; congruence. }
           apply lift; [exact W3|]. intros b _ _. exists (S T). split; [reflexivity|lia].
        -- rewrite (rtd_keep a D), R. destruct (loc_dec l (LSlot a i)) as [E|E].
           ++ rewrite (H1 i E). cbn [fst]. pose proof C1 as X. rewrite E in X at 3. exact X.
           ++ rewrite (H2 i E). apply (lift_linked (LSlot a i) _ (snd (f0 i))); [split; [exact Li|]; split; [exact R|eauto]|congruence|]. cbn. rewrite M0. destruct (f0 i); reflexivity.
  - intros a f u i M R Li. destruct (mem_back a ltac:(rewrite M; discriminate)) as [(b & Eb & Ea & Mb)|(Na & [(d & _ & Md)|(f0 & f1 & M0 & M1 & H1 & H2)])].
    + subst a. rewrite (rtd_keep N0 new_not_rx), new_rtd in R. discriminate R.
    + congruence.
    + rewrite M in M1. injection M1 as <-. assert (E : l <> LSlot a i).
      { intros E. rewrite (rtd_keep a (l_not_rx a i E)) in R. pose proof Lk as W. rewrite E in W. destruct W as (_ & R0 & _). congruence. }
      rewrite (H2 i E). destruct (sw_rtd h l x' blk rx (S T) a) as [(D & _)|(_ & D)]; [|rewrite D in R; exact (v_frz _ _ _ I a f0 u i M0 R Li)].
      exact (proj1 (C4 a f0 i (rx_br a f0 D M0) M0 Li)).
  - intros a f M R. destruct (mem_back a ltac:(rewrite M; discriminate)) as [(b & Eb & Ea & Mb)|(Na & [(d & _ & Md)|(f0 & f1 & M0 & M1 & H1 & H2)])].
    + subst a. rewrite M in Mb. subst b. destruct (C2 f Eb) as (_ & W2 & _). exists l, false. rewrite (sw_pos_new h pos l blk _ Eb), (sw_lpath h pos l blk Ifresh l Ilk). split; [reflexivity|].
      split; [exact linked_l'|]. rewrite sw_content_l, W2; [reflexivity|exact Ifresh|exact Ilk].
    + congruence.
    + destruct (rtd_none a R) as (Nr & R0). destruct (v_lnk _ _ _ I a f0 M0 R0) as (m & g & P & Km & C). rewrite (sw_old h pos l blk a Na).
      assert (Nm : m <> l) by (intros ->; rewrite C in Cx; injection Cx as Ex _; symmetry in Ex; exact (Nr (C6 a Ex))).
      destruct m as [|c j].
      * exists LRoot, g. split; [exact P|]. split; [exact Logic.I|]. rewrite (sw_content h l x' blk rx (S T) Ifresh LRoot Nm); [exact C|intros ? ? E; discriminate E].
      * pose proof Km as (Lj & Rc & fc & Mc). destruct (onat_dec rx (Some c)) as [D|D].
        -- pose proof (rx_br c fc D Mc) as Ex. cbn in C. rewrite Mc in C. injection C as C. destruct (C4 c fc j Ex Mc Lj) as (_ & G & _). rewrite C in G. destruct (G a eq_refl) as (g1 & Eb & G1).
           exists (LSlot N0 j), (snd (g1 j)). cbn [lpath]. rewrite (sw_pos_new h pos l blk _ Eb). split; [|split].
           ++ destruct (x_br c Ex) as (_ & _ & W & _). rewrite <- W. exact P.
           ++ exact (linked_new g1 j Eb Lj).
           ++ rewrite (content_new g1 j Eb), <- G1. destruct (g1 j); reflexivity.
        -- exists (LSlot c j), g. assert (O : forall b k, LSlot c j = LSlot b k -> exists f, mem h b = BBr f) by (intros b k E; injection E as <- <-; eauto).
           rewrite (sw_lpath h pos l blk Ifresh _ O). split; [exact P|]. split; [apply linked_old; [exact Km|]; intros b k E; injection E as <- <-; exact D|].
           rewrite sw_content; [exact C|exact Ifresh|exact Nm|exact O].
  - intros a d M R. destruct (mem_back a ltac:(rewrite M; discriminate)) as [(b & Eb & Ea & Mb)|(Na & [(d0 & M0 & Md)|(f0 & f1 & M0 & M1 & H1 & H2)])].
    + subst a. rewrite M in Mb. subst b. exists l, false. split; [exact linked_l'|]. rewrite sw_content_l, (C2' d Eb); [reflexivity|exact Ifresh|exact Ilk].
    + destruct (rtd_none a R) as (Nr & R0). destruct (v_leaf _ _ _ I a d0 M0 R0) as (m & g & Km & C).
      assert (NEW : forall j g1, j < 16 -> blk = Some (BBr g1) -> fst (g1 j) = PLeaf a -> exists l0 g0, linked h' l0 /\ content h' l0 = Some (PLeaf a, g0)).
      { intros j g1 Lj Eb G1. exists (LSlot N0 j), (snd (g1 j)). split; [exact (linked_new g1 j Eb Lj)|]. rewrite (content_new g1 j Eb), <- G1. destruct (g1 j); reflexivity. }
      destruct (loc_dec m l) as [E|Nm].
      * rewrite E, Cx in C. injection C as Ex _. assert (Er : rx = None).
        { destruct (onat_dec rx None) as [E'|E']; [exact E'|]. exfalso. destruct rx as [y|] eqn:Er; [|congruence]. destruct (C3 y eq_refl) as [Q|Q]; congruence. }
        destruct (C5 a Ex Er) as (g1 & j & Eb & Lj & G1). exact (NEW j g1 Lj Eb G1).
      * destruct m as [|c j].
        -- exists LRoot, g. split; [exact Logic.I|]. rewrite (sw_content h l x' blk rx (S T) Ifresh LRoot Nm); [exact C|intros ? ? E; discriminate E].
        -- pose proof Km as (Lj & Rc & fc & Mc). destruct (onat_dec rx (Some c)) as [D|D].
           ++ pose proof (rx_br c fc D Mc) as Ex. cbn in C. rewrite Mc in C. injection C as C. destruct (C4 c fc j Ex Mc Lj) as (_ & _ & G). rewrite C in G.
              destruct (G a eq_refl) as [E|(g1 & Eb & G1)]; [|exact (NEW j g1 Lj Eb G1)].
              exists l, false. split; [exact linked_l'|]. rewrite sw_content_l, E; [reflexivity|exact Ifresh|exact Ilk].
           ++ exists (LSlot c j), g. split; [apply linked_old; [exact Km|]; intros b k E; injection E as <- <-; exact D|].
              rewrite sw_content; [exact C|exact Ifresh|exact Nm|]. intros b k E. injection E as <- <-. eauto.
    + congruence.
Qed.
End Swap.
End Heap.
