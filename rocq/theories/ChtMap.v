(** The row index under every schedule: what each write to memory does to the tree and to the map. *)
From Coq Require Import List Arith NArith Bool Lia.
From Verif Require Import MtModel MtSpec MtProofs ChtModel ChtSpec ChtHeap.
Import ListNotations.
Local Open Scope nat_scope.

Section Map.
Variables K V : Type.
Variable keq : K -> K -> bool.
Hypothesis keq_ok : forall a b, keq a b = true <-> a = b.
Variable hash : K -> N.
Notation elem := (K * V)%type.
Notation heap := (heap K V).
Notation chunk_at := (chunk_at K hash).
Notation sfind := (sfind K V keq).
Notation BNone := (BNone K V).
Notation BLeaf := (BLeaf K V).
Notation BBr := (BBr K V).
Notation mem := (mem K V).
Notation rtd := (rtd K V).
Notation root := (root K V).
Notation next := (next K V).
Notation prefix := (prefix K hash).
Notation content := (content K V).
Notation linked := (linked K V).
Notation good := (good K V hash).
Notation valid := (valid K V hash).
Notation Inv := (Inv K V hash).
Notation walk := (walk K V keq hash).
Notation abs := (abs K V keq hash).
Notation swap := (swap K V).
Notation swap_pos := (swap_pos K V).
Notation later := (later K V).

(** * What never changes *)
Record ext (T : nat) (h : heap) (pos : posn) (h' : heap) (pos' : posn) : Prop := {
  e_leaf : forall a d, mem h a = BLeaf d -> mem h' a = BLeaf d;
  e_br : forall a f, mem h a = BBr f -> pos' a = pos a /\ exists f', mem h' a = BBr f' /\ (forall i, snd (f i) = true -> f' i = f i) /\ (rtd h' a <> None -> forall i, i < 16 -> fst (f' i) = fst (f i));
  e_rtd : forall a, rtd h' a = rtd h a \/ (rtd h a = None /\ rtd h' a = Some (S T));
  e_one : forall a b, rtd h a = None -> rtd h' a <> None -> rtd h b = None -> rtd h' b <> None -> a = b;
  e_back : forall b f', mem h' b = BBr f' -> rtd h' b <> None -> exists f, mem h b = BBr f
}.
Lemma ext_refl T h pos : ext T h pos h pos.
Proof. constructor; auto; [|intros; congruence|eauto]. intros a f M. split; [reflexivity|]. exists f. auto. Qed.

(** * Marking a slot *)
Section Tag.
Variables (T : nat) (h h' : heap) (pos : posn).
Hypothesis I : Inv T h pos.
Hypothesis Hroot : root h' = root h.
Hypothesis Hnext : next h' = next h.
Hypothesis Hrtd : forall a, rtd h' a = rtd h a.
Hypothesis Hmem : forall a, match mem h a with
  | ChtModel.BBr _ _ f => exists f', mem h' a = BBr f' /\ (forall i, fst (f' i) = fst (f i)) /\ (forall i, snd (f i) = true -> snd (f' i) = true)
  | b => mem h' a = b end.
Lemma tg_br a f : mem h a = BBr f -> exists f', mem h' a = BBr f' /\ (forall i, fst (f' i) = fst (f i)) /\ (forall i, snd (f i) = true -> snd (f' i) = true).
Proof. intros M. specialize (Hmem a). rewrite M in Hmem. exact Hmem. Qed.
Lemma tg_back a f' : mem h' a = BBr f' -> exists f, mem h a = BBr f /\ (forall i, fst (f' i) = fst (f i)) /\ (forall i, snd (f i) = true -> snd (f' i) = true).
Proof.
  intros M. specialize (Hmem a). destruct (mem h a) as [|d|f]; [congruence|congruence|]. destruct Hmem as (f2 & M2 & A & B). rewrite M in M2. injection M2 as <-. exists f. auto.
Qed.
Lemma tg_leaf a d : mem h a = BLeaf d -> mem h' a = BLeaf d.
Proof. intros M. specialize (Hmem a). rewrite M in Hmem. exact Hmem. Qed.
Lemma tg_leaf_back a d : mem h' a = BLeaf d -> mem h a = BLeaf d.
Proof. intros M. specialize (Hmem a). destruct (mem h a) as [|d'|f]; [congruence|congruence|]. destruct Hmem as (f2 & M2 & _). congruence. Qed.
Lemma tg_valid p x r : valid h pos p x r -> valid h' pos p x r.
Proof.
  destruct x as [|a|a]; cbn; [auto| |].
  - intros ((d & M & G) & L). split; [exists d; split; [exact (tg_leaf a d M)|exact G]|]. unfold ChtHeap.later in *. rewrite Hrtd. exact L.
  - intros ((f & M) & P & L). split; [destruct (tg_br a f M) as (f' & M' & _); eauto|]. split; [exact P|]. unfold ChtHeap.later in *. rewrite Hrtd. exact L.
Qed.
Lemma tg_linked l : linked h l -> linked h' l.
Proof. destruct l as [|a i]; cbn; [auto|]. intros (Li & R & f & M). split; [exact Li|]. rewrite Hrtd. split; [exact R|]. destruct (tg_br a f M) as (f' & M' & _). eauto. Qed.
Lemma tg_content l x g : content h l = Some (x, g) -> exists g', content h' l = Some (x, g').
Proof.
  destruct l as [|a i]; cbn; [intros E; rewrite Hroot; injection E as <- _; eauto|]. destruct (mem h a) as [|d|f] eqn:M; try discriminate. intros E. destruct (tg_br a f M) as (f' & M' & A & _).
  rewrite M'. injection E as E. specialize (A i). rewrite E in A. cbn in A. destruct (f' i) as (y, g'). cbn in A. subst y. eauto.
Qed.
Lemma tg_inv : Inv T h' pos.
Proof.
  constructor.
  - intros a L. rewrite Hnext in L. destruct (v_next _ _ _ _ _ _ I a L) as (M & R). specialize (Hmem a). rewrite M in Hmem. rewrite Hrtd. auto.
  - intros a u. rewrite Hrtd. apply (v_time _ _ _ _ _ _ I).
  - rewrite Hroot. apply tg_valid. exact (v_root _ _ _ _ _ _ I).
  - intros a f' M'. destruct (tg_back a f' M') as (f & M & A & _). destruct (v_br _ _ _ _ _ _ I a f M) as (W1 & W2). split; [exact W1|]. intros i Li. rewrite A, Hrtd. apply tg_valid. exact (W2 i Li).
  - intros a f' u i M' R Li. destruct (tg_back a f' M') as (f & M & _ & B). rewrite Hrtd in R. apply B. exact (v_frz _ _ _ _ _ _ I a f u i M R Li).
  - intros a f' M' R. destruct (tg_back a f' M') as (f & M & _). rewrite Hrtd in R. destruct (v_lnk _ _ _ _ _ _ I a f M R) as (l & g & P & Lk & C). destruct (tg_content l _ g C) as (g' & C').
    exists l, g'. split; [exact P|]. split; [exact (tg_linked l Lk)|exact C'].
  - intros a d M' R. pose proof (tg_leaf_back a d M') as M. rewrite Hrtd in R. destruct (v_leaf _ _ _ _ _ _ I a d M R) as (l & g & Lk & C). destruct (tg_content l _ g C) as (g' & C').
    exists l, g'. split; [exact (tg_linked l Lk)|exact C'].
Qed.
Lemma tg_walk k : forall n x d, walk (mem h') n x d k = walk (mem h) n x d k.
Proof.
  induction n as [|n IH]; intros x d; destruct x as [|a|a]; try reflexivity; cbn [ChtHeap.walk].
  1, 2: specialize (Hmem a); destruct (mem h a) as [|dd|f]; [rewrite Hmem; reflexivity|rewrite Hmem; reflexivity|destruct Hmem as (f' & -> & _); reflexivity].
  specialize (Hmem a). destruct (mem h a) as [|dd|f]; [rewrite Hmem; reflexivity|rewrite Hmem; reflexivity|]. destruct Hmem as (f' & -> & A & _). rewrite A. apply IH.
Qed.
Lemma tg_abs k : abs h' k = abs h k.
Proof. unfold ChtHeap.abs. rewrite Hroot. apply tg_walk. Qed.
Lemma tg_ext : (forall a f f' i, mem h a = BBr f -> mem h' a = BBr f' -> snd (f i) = true -> f' i = f i) -> ext T h pos h' pos.
Proof.
  intros E. constructor; [exact tg_leaf| |intros a; left; apply Hrtd|intros a b Ra Ra'; rewrite Hrtd in Ra'; congruence|intros b f' M' _; destruct (tg_back b f' M') as (f & M & _); eauto]. intros a f M. split; [reflexivity|]. destruct (tg_br a f M) as (f' & M' & A & B). exists f'. split; [exact M'|].
  split; [intros i Si; exact (E a f f' i M M' Si)|]. intros _ i _. apply A.
Qed.
End Tag.

Lemma tag_ok T h pos c f i x : Inv T h pos -> mem h c = BBr f -> fst (f i) = x ->
  let h' := wr K V h (LSlot c i) (x, true) in
  Inv T h' pos /\ ext T h pos h' pos /\ (forall k, abs h' k = abs h k) /\ mem h' c = BBr (fup f i (x, true)).
Proof.
  intros I M E. cbn [wr]. rewrite M. set (h' := MkHeap K V (root h) (fup (mem h) c (BBr (fup f i (x, true)))) (next h) (rtd h)).
  assert (Mc : mem h' c = BBr (fup f i (x, true))) by (cbn; apply fup_same).
  assert (Mo : forall a, a <> c -> mem h' a = mem h a) by (intros a N; cbn; apply fup_other; exact N).
  assert (HM : forall a, match mem h a with ChtModel.BBr _ _ f => exists f', mem h' a = BBr f' /\ (forall i, fst (f' i) = fst (f i)) /\ (forall i, snd (f i) = true -> snd (f' i) = true) | b => mem h' a = b end).
  { intros a. destruct (Nat.eq_dec a c) as [->|N].
    - rewrite M. exists (fup f i (x, true)). split; [exact Mc|]. split; intros j; destruct (Nat.eq_dec j i) as [->|Nj]; rewrite ?fup_same, ?fup_other by exact Nj; auto.
    - rewrite (Mo a N). destruct (mem h a) as [|d|g]; try reflexivity. exists g. auto. }
  split; [exact (tg_inv T h h' pos I eq_refl eq_refl (fun _ => eq_refl) HM)|]. split; [|split; [exact (tg_abs h h' eq_refl HM)|exact Mc]].
  apply tg_ext; [intros; reflexivity|exact HM|]. intros a g g' j Mg Mg' Sj. destruct (Nat.eq_dec a c) as [->|N].
  - rewrite M in Mg. injection Mg as <-. rewrite Mc in Mg'. injection Mg' as <-. destruct (Nat.eq_dec j i) as [->|Nj]; [|apply fup_other; exact Nj]. rewrite fup_same. rewrite <- E, <- Sj. destruct (f i); reflexivity.
  - rewrite (Mo a N), Mg in Mg'. injection Mg' as <-. reflexivity.
Qed.

(** * Replacing *)
Section Rep.
Variables (T : nat) (h : heap) (pos : posn) (l : loc) (x x' : ptr) (blk : option (block K V)) (rx : option nat).
Hypothesis I : Inv T h pos.
Hypothesis Lk : linked h l.
Hypothesis Cx : content h l = Some (x, false).
Notation h' := (swap h l x' blk rx (S T)).
Notation pos' := (swap_pos h pos l blk).
Hypothesis C3 : forall y, rx = Some y -> x = PLeaf y \/ x = PBr y.

Let fr : forall a, next h <= a -> mem h a = BNone := Ifresh K V hash T h pos I.
Let lk : forall a i, l = LSlot a i -> exists f, mem h a = BBr f := Ilk K V h l Lk.

Lemma rep_ext : ext T h pos h' pos'.
Proof.
  constructor.
  - intros a d M. exact (sw_mem_leaf K V h l x' blk rx (S T) fr lk a d M).
  - intros a f M. split; [apply sw_old; intros ->; rewrite fr in M by apply le_n; discriminate M|].
    destruct (sw_mem_br K V h l x' blk rx (S T) fr a f M) as (f' & M' & A & B). exists f'. split; [exact M'|]. split.
    + intros i Si. apply B. intros E. pose proof Cx as C. rewrite E in C. cbn in C. rewrite M in C. injection C as C. rewrite C in Si. discriminate Si.
    + intros R i Li. rewrite B; [reflexivity|]. intros E. apply R. pose proof Lk as W. rewrite E in W. destruct W as (_ & R0 & _).
      destruct (sw_rtd K V h l x' blk rx (S T) a) as [(D & _)|(_ & D)]; [|congruence]. exfalso. exact (l_not_rx K V hash T h pos l x rx I Lk Cx C3 a i E D).
  - intros a. destruct (sw_rtd K V h l x' blk rx (S T) a) as [(D & E)|(_ & D)]; [|left; exact D]. right. split; [|exact E].
    exact (proj1 (rx_rtd K V hash T h pos l x rx I Lk Cx C3 a D)).
  - intros a b Ra Ra' Rb Rb'. destruct (sw_rtd K V h l x' blk rx (S T) a) as [(D & _)|(_ & D)]; [|congruence]. destruct (sw_rtd K V h l x' blk rx (S T) b) as [(D' & _)|(_ & D')]; congruence.
  - intros b f' M' R. destruct (Nat.eq_dec b (next h)) as [->|N].
    + exfalso. apply R. rewrite rtd_keep; [exact (new_rtd K V hash T h pos I)|]. exact (new_not_rx K V hash T h pos l x rx I Lk Cx C3).
    + destruct (mem h b) as [|d|f] eqn:M; [| |eauto]; exfalso; rewrite sw_mem_same in M'; auto; congruence.
Qed.

(** a way down that does not meet the slot *)
Lemma walk_same k : forall n d m y g, linked h m -> content h m = Some (y, g) -> lpath pos m = prefix k d -> (forall d', d < d' -> lpath pos l <> prefix k d') ->
  walk (mem h') n y d k = walk (mem h) n y d k.
Proof.
  induction n as [|n IH]; intros d m y g Lm Cm P O; pose proof (linked_valid K V hash T h pos I m y g Lm Cm) as W; destruct y as [|a|a]; try reflexivity.
  - destruct W as ((dd & M & _) & _). rewrite (walk_leaf K V keq hash _ _ _ _ _ dd M), (walk_leaf K V keq hash _ _ _ _ _ dd (sw_mem_leaf K V h l x' blk rx (S T) fr lk a dd M)). reflexivity.
  - destruct W as ((dd & M & _) & _). rewrite (walk_leaf K V keq hash _ _ _ _ _ dd M), (walk_leaf K V keq hash _ _ _ _ _ dd (sw_mem_leaf K V h l x' blk rx (S T) fr lk a dd M)). reflexivity.
  - destruct W as ((f & M) & Pa & R). destruct (sw_mem_br K V h l x' blk rx (S T) fr a f M) as (f' & M' & _ & B).
    rewrite (walk_br K V keq hash _ _ _ _ _ f M), (walk_br K V keq hash _ _ _ _ _ f' M'). assert (P' : lpath pos (LSlot a (chunk_at k d)) = prefix k (S d)) by (cbn [lpath]; rewrite Pa, P, prefix_S; reflexivity).
    rewrite B by (intros E; apply (O (S d)); [lia|]; rewrite E; exact P').
    apply (IH (S d) (LSlot a (chunk_at k d)) _ (snd (f (chunk_at k d)))); [|cbn; rewrite M; destruct (f (chunk_at k d)); reflexivity|exact P'|intros d' L; apply O; lia].
    split; [apply chunk_at_lt|]. split; [exact R|eauto].
Qed.
Lemma abs_off k : (forall d, lpath pos l <> prefix k d) -> abs h' k = abs h k.
Proof.
  intros O. unfold ChtHeap.abs. rewrite sw_root.
  assert (E : match l with LRoot => x' | LSlot _ _ => root h end = root h) by (clear - O; destruct l; [exfalso; exact (O 0 eq_refl)|reflexivity]). rewrite E.
  apply (walk_same k 16 0 LRoot (root h) false); [exact Logic.I|reflexivity|reflexivity|]. intros d' _. apply O.
Qed.
Hypothesis I' : Inv (S T) h' pos'.
Lemma abs_on k d : lpath pos l = prefix k d -> abs h k = walk (mem h) (16 - d) x d k /\ abs h' k = walk (mem h') (16 - d) x' d k.
Proof.
  intros P. split; [exact (walk_at K V keq hash T h pos I k d l x false Lk Cx P)|].
  apply (walk_at K V keq hash (S T) h' pos' I' k d l x' false).
  - destruct l as [|a i] eqn:E; [exact Logic.I|]. pose proof Lk as (Li & R & f & M). split; [exact Li|]. split.
    + destruct (sw_rtd K V h (LSlot a i) x' blk rx (S T) a) as [(D & _)|(_ & D)]; [|congruence]. exfalso. exact (l_not_rx K V hash T h pos (LSlot a i) x rx I Lk Cx C3 a i eq_refl D).
    + destruct (sw_mem_br K V h (LSlot a i) x' blk rx (S T) (Ifresh K V hash T h pos I) a f M) as (f' & M' & _). eauto.
  - exact (sw_content_l K V h l x' blk rx (S T) fr lk).
  - rewrite sw_lpath; [exact P|exact fr|exact lk].
Qed.
End Rep.

(** is the slot on the way of a key? *)
Lemma on_dec pos l k : (exists d, lpath pos l = prefix k d) \/ forall d, lpath pos l <> prefix k d.
Proof.
  destruct (list_eq_dec Nat.eq_dec (lpath pos l) (prefix k (length (lpath pos l)))) as [E|N]; [left; eauto|].
  right. intros d E. apply N. rewrite E at 2. rewrite prefix_len. exact E.
Qed.

(** * A new leaf in place of nothing or of a leaf *)
Definition leafdata (h : heap) (x : ptr) : list elem :=
  match x with PLeaf a => match mem h a with ChtModel.BLeaf _ _ d => d | _ => [] end | _ => [] end.
Definition rxof (x : ptr) : option nat := match x with PNull => None | PLeaf a | PBr a => Some a end.

Lemma put_leaf T h pos l x d : Inv T h pos -> linked h l -> content h l = Some (x, false) -> (forall c, x <> PBr c) -> good (lpath pos l) d ->
  exists h' pos', out K V (wr K V (alloc K V h (BLeaf d)) l (PLeaf (next h), false)) (S T) x = Some h' /\ Inv (S T) h' pos' /\ ext T h pos h' pos' /\
  (forall k, (forall n, lpath pos l <> prefix k n) -> abs h' k = abs h k) /\
  (forall k n, lpath pos l = prefix k n -> abs h' k = sfind k d /\ abs h k = sfind k (leafdata h x)).
Proof.
  intros I Lk Cx NB G. set (h' := swap h l (PLeaf (next h)) (Some (BLeaf d)) (rxof x) (S T)). set (pos' := swap_pos h pos l (Some (BLeaf d))). exists h', pos'.
  pose proof (linked_valid K V hash T h pos I l x false Lk Cx) as W.
  assert (C3 : forall y, rxof x = Some y -> x = PLeaf y \/ x = PBr y) by (intros y E; destruct x; cbn in E; [discriminate E|injection E as ->; auto|injection E as ->; auto]).
  assert (fr : forall a, next h <= a -> mem h a = BNone) by exact (Ifresh K V hash T h pos I).
  assert (lk : forall a i, l = LSlot a i -> exists f, mem h a = BBr f) by exact (Ilk K V h l Lk).
  assert (Mn : mem h' (next h) = BLeaf d) by (apply sw_mem_new; auto).
  assert (I' : Inv (S T) h' pos').
  { apply (swap_inv K V hash T h pos l x); auto.
    - cbn. split; [exists d; split; [exact Mn|exact G]|]. rewrite (rtd_keep K V T h l (PLeaf (next h)) (Some (BLeaf d)) (rxof x) (next h)); [exact (new_rtd K V hash T h pos I)|].
      exact (new_not_rx K V hash T h pos l x (rxof x) I Lk Cx C3).
    - intros f E. discriminate E.
    - intros c f i E. exfalso. exact (NB c E).
    - intros a -> E. discriminate E.
    - intros c E. exfalso. exact (NB c E). }
  split.
  { unfold h', ChtHeap.swap. cbn iota. destruct x as [|a|a]; [reflexivity| |exfalso; exact (NB a eq_refl)]. cbn [rxof out].
    assert (R : rtd (wr K V (alloc K V h (BLeaf d)) l (PLeaf (next h), false)) a = None); [|rewrite R; reflexivity].
    destruct W as (_ & W). cbn in W. destruct l as [|b i]; cbn [wr]; [exact W|]. destruct (mem (alloc K V h (BLeaf d)) b); exact W. }
  split; [exact I'|]. split; [exact (rep_ext T h pos l x (PLeaf (next h)) (Some (BLeaf d)) (rxof x) I Lk Cx C3)|]. split.
  - intros k. exact (abs_off T h pos l (PLeaf (next h)) (Some (BLeaf d)) (rxof x) I Lk k).
  - intros k n P. destruct (abs_on T h pos l x (PLeaf (next h)) (Some (BLeaf d)) (rxof x) I Lk Cx C3 I' k n P) as (A & B). fold h' in B. rewrite A, B, (walk_leaf K V keq hash _ _ _ _ _ d Mn).
    split; [reflexivity|]. destruct x as [|a|a]; [apply walk_null| |exfalso; exact (NB a eq_refl)]. destruct W as ((dd & M & _) & _). rewrite (walk_leaf K V keq hash _ _ _ _ _ dd M). cbn [leafdata]. rewrite M. reflexivity.
Qed.

(** a leaf taken out *)
Lemma drop_leaf T h pos l a : Inv T h pos -> linked h l -> content h l = Some (PLeaf a, false) ->
  exists h' pos', out K V (wr K V h l (PNull, false)) (S T) (PLeaf a) = Some h' /\ Inv (S T) h' pos' /\ ext T h pos h' pos' /\
  (forall k, (forall n, lpath pos l <> prefix k n) -> abs h' k = abs h k) /\
  (forall k n, lpath pos l = prefix k n -> abs h' k = None /\ abs h k = sfind k (leafdata h (PLeaf a))).
Proof.
  intros I Lk Cx. set (h' := swap h l PNull None (Some a) (S T)). set (pos' := swap_pos h pos l None). exists h', pos'.
  pose proof (linked_valid K V hash T h pos I l (PLeaf a) false Lk Cx) as W.
  assert (C3 : forall y, Some a = Some y -> PLeaf a = PLeaf y \/ PLeaf a = PBr y) by (intros y E; injection E as ->; auto).
  assert (I' : Inv (S T) h' pos').
  { apply (swap_inv K V hash T h pos l (PLeaf a)); auto; try (intros; discriminate). exact Logic.I. }
  split.
  { unfold h', ChtHeap.swap. cbn iota. cbn [out]. assert (R : rtd (wr K V h l (PNull, false)) a = None); [|rewrite R; reflexivity].
    destruct W as (_ & W). cbn in W. destruct l as [|b i]; cbn [wr]; [exact W|]. destruct (mem h b); exact W. }
  split; [exact I'|]. split; [exact (rep_ext T h pos l (PLeaf a) PNull None (Some a) I Lk Cx C3)|]. split.
  - intros k. exact (abs_off T h pos l PNull None (Some a) I Lk k).
  - intros k n P. destruct (abs_on T h pos l (PLeaf a) PNull None (Some a) I Lk Cx C3 I' k n P) as (A & B). fold h' in B. rewrite A, B, walk_null.
    split; [reflexivity|]. destruct W as ((dd & M & _) & _). rewrite (walk_leaf K V keq hash _ _ _ _ _ dd M). cbn [leafdata]. rewrite M. reflexivity.
Qed.

(** * A leaf pushed down *)
Lemma split_leaf T h pos l a e0 n : Inv T h pos -> linked h l -> content h l = Some (PLeaf a, false) -> mem h a = BLeaf [e0] -> length (lpath pos l) = n -> n < 16 ->
  let i := chunk_at (fst e0) n in
  let h' := wr K V (alloc K V h (BBr (fup (fun _ => (PNull, false)) i (PLeaf a, false)))) l (PBr (next h), false) in
  exists pos', Inv (S T) h' pos' /\ ext T h pos h' pos' /\ (forall k, abs h' k = abs h k).
Proof.
  intros I Lk Cx Ma Ln L16 i h'. set (g := fup (fun _ => (PNull, false)) i (PLeaf a, false)). change h' with (swap h l (PBr (next h)) (Some (BBr g)) None (S T)). clear h'.
  set (h' := swap h l (PBr (next h)) (Some (BBr g)) None (S T)). set (pos' := swap_pos h pos l (Some (BBr g))). exists pos'.
  pose proof (linked_valid K V hash T h pos I l (PLeaf a) false Lk Cx) as W.
  assert (C3 : forall y, None = Some y -> PLeaf a = PLeaf y \/ PLeaf a = PBr y) by (intros y E; discriminate E).
  assert (fr : forall a, next h <= a -> mem h a = BNone) by exact (Ifresh K V hash T h pos I).
  assert (lk : forall a i, l = LSlot a i -> exists f, mem h a = BBr f) by exact (Ilk K V h l Lk).
  assert (Mn : mem h' (next h) = BBr g) by (apply sw_mem_new; auto).
  destruct W as ((dd & M & G) & R). rewrite Ma in M. injection M as <-. cbn in R.
  assert (Pe : lpath pos l = prefix (fst e0) n) by (destruct G as (_ & _ & G & _); rewrite (G e0 (or_introl eq_refl)), Ln; reflexivity).
  assert (I' : Inv (S T) h' pos').
  { apply (swap_inv K V hash T h pos l (PLeaf a)); auto; try (intros; discriminate).
    - cbn [ChtHeap.valid ChtHeap.later]. split; [eauto|]. split; [unfold pos'; cbn; apply fup_same|]. unfold h'. rewrite (rtd_keep K V T h l (PBr (next h)) (Some (BBr g)) None (next h)); [exact (new_rtd K V hash T h pos I)|discriminate].
    - intros f E. injection E as <-. split; [lia|]. split; [reflexivity|]. intros j Lj. unfold g. destruct (Nat.eq_dec j i) as [->|Nj]; [rewrite fup_same|rewrite fup_other by exact Nj; exact Logic.I].
      cbn [fst ChtHeap.valid]. split.
      + exists [e0]. split; [apply sw_mem_leaf; auto|]. destruct G as (A & B & _ & _). repeat split; auto. intros e [<-|[]]. rewrite app_length, Ln. cbn. rewrite Nat.add_1_r, prefix_S, Pe. reflexivity.
      + cbn [ChtHeap.later]. fold g. rewrite (rtd_keep K V T h l (PBr (next h)) (Some (BBr g)) None a); [exact R|discriminate].
    - intros b E _. injection E as <-. exists g, i. split; [reflexivity|]. split; [apply chunk_at_lt|]. unfold g. rewrite fup_same. reflexivity. }
  split; [exact I'|]. split; [exact (rep_ext T h pos l (PLeaf a) (PBr (next h)) (Some (BBr g)) None I Lk Cx C3)|].
  intros k. destruct (on_dec pos l k) as [(d & P)|O]; [|exact (abs_off T h pos l (PBr (next h)) (Some (BBr g)) None I Lk k O)].
  assert (d = n) by (rewrite P, prefix_len in Ln; exact Ln). subst d.
  destruct (abs_on T h pos l (PLeaf a) (PBr (next h)) (Some (BBr g)) None I Lk Cx C3 I' k n P) as (A & B). fold h' in B. rewrite A, B.
  rewrite (walk_leaf K V keq hash _ _ _ _ _ _ Ma). replace (16 - n) with (S (15 - n)) by lia. rewrite (walk_br K V keq hash _ _ _ _ _ g Mn). unfold g.
  destruct (Nat.eq_dec (chunk_at k n) i) as [E|N].
  - rewrite E, fup_same. cbn [fst]. rewrite (walk_leaf K V keq hash _ _ _ _ _ [e0]); [reflexivity|]. apply sw_mem_leaf; auto.
  - rewrite fup_other by exact N. cbn [fst]. rewrite walk_null. symmetry. apply sfind_none; [exact keq_ok|]. cbn. intros [E|[]]. apply N. rewrite <- E. reflexivity.
Qed.

(** * A branch rebuilt, or replaced by its only leaf or by nothing *)
Definition weight (h : heap) (x : ptr) : nat :=
  match x with PNull => 0 | PLeaf a => match mem h a with ChtModel.BLeaf _ _ d => length d | _ => 0 end | PBr _ => 1 end.

Lemma count_cons x acc : count (x :: acc) = snd x + count acc.
Proof. reflexivity. Qed.
Lemma count_zero acc : count acc = 0 -> forall x, In x acc -> snd x = 0.
Proof. induction acc as [|y acc IH]; [intros _ x []|]. rewrite count_cons. intros E x [<-|X]; [lia|apply IH; [lia|exact X]]. Qed.
Lemma last_leaf_from acc : forall z, fold_left (fun a (x : ptr * nat) => match fst x with PLeaf b => Some b | _ => a end) acc z =
  match last_leaf acc with Some b => Some b | None => z end.
Proof.
  unfold last_leaf. induction acc as [|x acc IH]; intros z; cbn [fold_left]; [reflexivity|]. rewrite IH. rewrite (IH (match fst x with PLeaf b => Some b | _ => None end)).
  destruct (fold_left _ acc None); [reflexivity|]. destruct (fst x); reflexivity.
Qed.
Lemma last_leaf_cons x acc : last_leaf (x :: acc) = match last_leaf acc with Some b => Some b | None => match fst x with PLeaf b => Some b | _ => None end end.
Proof. unfold last_leaf at 1. cbn [fold_left]. rewrite last_leaf_from. reflexivity. Qed.
Lemma last_leaf_in acc a : last_leaf acc = Some a -> exists w, In (PLeaf a, w) acc.
Proof.
  induction acc as [|x acc IH]; [discriminate|]. rewrite last_leaf_cons. destruct (last_leaf acc) as [b|].
  - intros E. injection E as ->. destruct (IH eq_refl) as (w & X). exists w. right. exact X.
  - destruct x as ([|b|b], w); cbn; intros E; try discriminate E. injection E as ->. exists w. left. reflexivity.
Qed.
Lemma last_leaf_none acc : last_leaf acc = None -> forall x b, In x acc -> fst x <> PLeaf b.
Proof.
  induction acc as [|y acc IH]; [intros _ x b []|]. rewrite last_leaf_cons. destruct (last_leaf acc) as [c|]; [discriminate|]. intros E x b [<-|X]; [|exact (IH eq_refl x b X)].
  intros Q. rewrite Q in E. discriminate E.
Qed.
(** one element in all *)
Lemma count_one acc : count acc = 1 -> forall i x, nth_error acc i = Some x -> 0 < snd x -> snd x = 1 /\ forall j y, nth_error acc j = Some y -> j <> i -> snd y = 0.
Proof.
  induction acc as [|z acc IH]; intros E i x X P; [destruct i; discriminate X|]. rewrite count_cons in E. destruct i as [|i]; cbn in X.
  - injection X as ->. split; [lia|]. intros [|j] y Y N; [congruence|]. cbn in Y. apply (count_zero acc); [lia|]. exact (nth_error_In _ _ Y).
  - assert (Z : 0 < count acc).
    { clear - X P. revert i X. induction acc as [|w acc IH]; intros i X; [destruct i; discriminate X|]. rewrite count_cons. destruct i as [|i]; cbn in X; [injection X as ->; lia|]. specialize (IH i X). lia. }
    assert (E' : count acc = 1) by lia. destruct (IH E' i x X P) as (A & B). split; [exact A|]. intros [|j] y Y N; cbn in Y; [injection Y as ->; lia|]. apply (B j y Y). lia.
Qed.

Section Compress.
Variables (T : nat) (h : heap) (pos : posn) (p : loc) (c : nat) (f : nat -> slot) (acc : list (ptr * nat)).
Hypothesis I : Inv T h pos.
Hypothesis Lk : linked h p.
Hypothesis Cx : content h p = Some (PBr c, false).
Hypothesis Mc : mem h c = BBr f.
Hypothesis Len : length acc = 16.
Hypothesis Hacc : forall i, i < 16 -> snd (f i) = true /\ nth_error acc i = Some (fst (f i), weight h (fst (f i))).

Lemma c_facts : rtd h c = None /\ pos c = lpath pos p /\ length (lpath pos p) < 16 /\ forall i, i < 16 -> valid h pos (lpath pos p ++ [i]) (fst (f i)) None.
Proof.
  pose proof (linked_valid K V hash T h pos I p _ false Lk Cx) as (_ & P & R). cbn in R. destruct (v_br _ _ _ _ _ _ I c f Mc) as (A & B). rewrite R, P in *. auto.
Qed.
Lemma weight_zero i : i < 16 -> weight h (fst (f i)) = 0 -> fst (f i) = PNull.
Proof.
  intros Li W. destruct c_facts as (_ & _ & _ & H). specialize (H i Li). destruct (fst (f i)) as [|a|a]; [reflexivity| |discriminate W]. destruct H as ((d & M & (NE & _)) & _).
  cbn in W. rewrite M in W. destruct d; [congruence|discriminate W].
Qed.
Lemma acc_slot i x : nth_error acc i = Some x -> i < 16 /\ x = (fst (f i), weight h (fst (f i))).
Proof. intros X. assert (Li : i < 16) by (rewrite <- Len; apply nth_error_Some; congruence). split; [exact Li|]. destruct (Hacc i Li) as (_ & Y). congruence. Qed.

(** what the replacement holds for a key *)
Lemma c_before k d : lpath pos p = prefix k d -> abs h k = walk (mem h) (15 - d) (fst (f (chunk_at k d))) (S d) k.
Proof.
  intros P. destruct c_facts as (_ & _ & L & _). rewrite P, prefix_len in L. rewrite (walk_at K V keq hash T h pos I k d p _ false Lk Cx P). replace (16 - d) with (S (15 - d)) by lia.
  apply walk_br. exact Mc.
Qed.

Lemma compress_gen x' blk : let h' := swap h p x' blk (Some c) (S T) in let pos' := swap_pos h pos p blk in
  valid h' pos' (lpath pos p) x' None ->
  (forall g, blk = Some (BBr g) -> x' = PBr (next h) /\ forall i, i < 16 -> fst (g i) = fst (f i)) ->
  (forall d, blk <> Some (BLeaf d)) ->
  (forall i, i < 16 -> (forall b, fst (f i) = PBr b -> exists g, blk = Some (BBr g)) /\ (forall b, fst (f i) = PLeaf b -> x' = PLeaf b \/ exists g, blk = Some (BBr g))) ->
  out K V (wr K V (match blk with Some b => alloc K V h b | None => h end) p (x', false)) (S T) (PBr c) = Some h' /\
  Inv (S T) h' pos' /\ ext T h pos h' pos' /\ (forall k, (forall n, lpath pos p <> prefix k n) -> abs h' k = abs h k) /\
  (forall k n, lpath pos p = prefix k n -> abs h' k = walk (mem h') (16 - n) x' n k).
Proof.
  intros h' pos' V1 V2 V3 V4. destruct c_facts as (Rc & Pc & L & H).
  assert (C3 : forall y, Some c = Some y -> PBr c = PLeaf y \/ PBr c = PBr y) by (intros y E; injection E as ->; auto).
  assert (I' : Inv (S T) h' pos').
  { apply (swap_inv K V hash T h pos p (PBr c)); auto.
    - intros g E. destruct (V2 g E) as (A & B). split; [exact L|]. split; [exact A|]. intros i Li. rewrite (B i Li).
      apply (lift K V hash T h pos p x' blk (Some c) I Lk); [exact (H i Li)|]. intros a Ea Er. exfalso. injection Er as <-. specialize (H i Li).
      destruct Ea as [E'|E']; rewrite E' in H; cbn in H; [destruct H as ((d & M & _) & _); congruence|]. destruct H as (_ & P & _). rewrite Pc in P. apply (f_equal (@length nat)) in P. rewrite app_length in P. cbn in P. lia.
    - intros d E. exfalso. exact (V3 d E).
    - intros c0 f0 i E M0 Li. injection E as <-. rewrite Mc in M0. injection M0 as <-. split; [exact (proj1 (Hacc i Li))|]. destruct (V4 i Li) as (A & B). split.
      + intros b Eb. destruct (A b Eb) as (g & Eg). exists g. split; [exact Eg|]. rewrite (proj2 (V2 g Eg) i Li). exact Eb.
      + intros b Eb. destruct (B b Eb) as [E|(g & Eg)]; [left; exact E|]. right. exists g. split; [exact Eg|]. rewrite (proj2 (V2 g Eg) i Li). exact Eb.
    - intros a E. discriminate E.
    - intros c0 E. injection E as <-. reflexivity. }
  split.
  { unfold h', ChtHeap.swap. cbn [out]. match goal with |- match rtd ?hh c with _ => _ end = _ => assert (R : rtd hh c = None) end; [|rewrite R; reflexivity].
    assert (R0 : rtd (match blk with Some b => alloc K V h b | None => h end) c = None) by (destruct blk; exact Rc).
    set (h1 := match blk with Some b => alloc K V h b | None => h end) in *. clearbody h1. clear - R0. destruct p as [|b i]; cbn [wr]; [exact R0|]. destruct (ChtModel.mem K V h1 b); exact R0. }
  split; [exact I'|]. split; [exact (rep_ext T h pos p (PBr c) x' blk (Some c) I Lk Cx C3)|]. split.
  - intros k. exact (abs_off T h pos p x' blk (Some c) I Lk k).
  - intros k n P. exact (proj2 (abs_on T h pos p (PBr c) x' blk (Some c) I Lk Cx C3 I' k n P)).
Qed.

Definition ccas_heap : heap * bool :=
  match decide acc with
  | CLeaf a => (wr K V h p (PLeaf a, false), false)
  | CNull => (wr K V h p (PNull, false), false)
  | CCopy => (wr K V (alloc K V h (BBr (fun i => (fst (nth i acc (PNull, 0)), false)))) p (PBr (next h), false), true)
  end.
Lemma compress_ok : exists h' pos', out K V (fst ccas_heap) (S T) (PBr c) = Some h' /\ Inv (S T) h' pos' /\ ext T h pos h' pos' /\ forall k, abs h' k = abs h k.
Proof.
  destruct c_facts as (Rc & Pc & L & H).
  assert (fr : forall a, next h <= a -> mem h a = BNone) by exact (Ifresh K V hash T h pos I).
  assert (lk : forall a i, p = LSlot a i -> exists f, mem h a = BBr f) by exact (Ilk K V h p Lk).
  unfold ccas_heap. destruct (decide acc) as [a| |] eqn:D; cbn [fst].
  - (* one leaf *)
    unfold decide in D. destruct (last_leaf acc) as [b|] eqn:LL; [|destruct (count acc =? 0); discriminate D]. destruct (only_leaves acc && (count acc =? 1)) eqn:E; [|discriminate D]. injection D as ->.
    apply andb_true_iff in E. destruct E as (_ & E). apply Nat.eqb_eq in E. destruct (last_leaf_in acc a LL) as (w & X). apply In_nth_error in X. destruct X as (j & X).
    destruct (acc_slot j _ X) as (Lj & Xj). injection Xj as Fj Wj. pose proof (H j Lj) as Hj. rewrite <- Fj in Hj. destruct Hj as ((d & Ma & G) & Ra). cbn in Ra.
    assert (Ew : w = length d) by (rewrite Wj, <- Fj; cbn; rewrite Ma; reflexivity).
    assert (Pw : 0 < w) by (destruct G as (NE & _); destruct d; [congruence|cbn in Ew; lia]).
    destruct (count_one acc E j _ X Pw) as (W1 & WO). cbn in W1.
    assert (NO : forall i, i < 16 -> i <> j -> fst (f i) = PNull).
    { intros i Li N. apply (weight_zero i Li). destruct (Hacc i Li) as (_ & Y). exact (WO i _ Y N). }
    destruct d as [|e [|e2 d]]; [cbn in Ew; lia| |cbn in Ew; lia].
    assert (Ge : lpath pos p ++ [j] = prefix (fst e) (S (length (lpath pos p)))) by (destruct G as (_ & _ & G & _); rewrite (G e (or_introl eq_refl)), app_length; cbn; rewrite Nat.add_1_r; reflexivity).
    rewrite prefix_S in Ge. apply app_inj_tail in Ge. destruct Ge as (Ge & Gj).
    destruct (compress_gen (PLeaf a) None) as (O & I' & X' & Off & On).
    + cbn [ChtHeap.valid ChtHeap.later]. split; [exists [e]; split; [apply sw_mem_leaf; auto|]|].
      * destruct G as (A & B & _ & _). split; [exact A|]. split; [exact B|]. split; [intros e' [<-|[]]; exact Ge|reflexivity].
      * rewrite (rtd_keep K V T h p (PLeaf a) None (Some c) a); [exact Ra|]. intros Q. injection Q as ->. congruence.
    + intros g Q. discriminate Q.
    + intros d Q. discriminate Q.
    + intros i Li. destruct (Nat.eq_dec i j) as [->|N]; [|rewrite (NO i Li N); split; intros; discriminate]. rewrite <- Fj. split; [intros; discriminate|]. intros b Q. injection Q as ->. left. reflexivity.
    + cbn iota in O. do 2 eexists. split; [exact O|]. split; [exact I'|]. split; [exact X'|]. intros k. destruct (on_dec pos p k) as [(n & P)|Q]; [|exact (Off k Q)].
      rewrite (On k n P), (c_before k n P). rewrite (walk_leaf K V keq hash _ _ _ _ _ [e]) by (apply sw_mem_leaf; auto). destruct (Nat.eq_dec (chunk_at k n) j) as [Q|N].
      * rewrite Q, <- Fj, (walk_leaf K V keq hash _ _ _ _ _ [e]); [reflexivity|exact Ma].
      * rewrite (NO _ (chunk_at_lt K hash k n) N), walk_null. apply sfind_none; [exact keq_ok|]. cbn. intros [Q|[]]. apply N. rewrite <- Q, Gj. rewrite P, prefix_len. reflexivity.
  - (* empty *)
    unfold decide in D. destruct (last_leaf acc) as [b|] eqn:LL; [destruct (only_leaves acc && (count acc =? 1)); discriminate D|]. destruct (count acc =? 0) eqn:E; [|discriminate D]. apply Nat.eqb_eq in E.
    assert (NO : forall i, i < 16 -> fst (f i) = PNull).
    { intros i Li. apply (weight_zero i Li). destruct (Hacc i Li) as (_ & Y). exact (count_zero acc E _ (nth_error_In _ _ Y)). }
    destruct (compress_gen PNull None) as (O & I' & X' & Off & On); [exact Logic.I|intros g Q; discriminate Q|intros d Q; discriminate Q|intros i Li; rewrite (NO i Li); split; intros; discriminate|].
    cbn iota in O. do 2 eexists. split; [exact O|]. split; [exact I'|]. split; [exact X'|]. intros k. destruct (on_dec pos p k) as [(n & P)|Q]; [|exact (Off k Q)].
    rewrite (On k n P), (c_before k n P), (NO _ (chunk_at_lt K hash k n)), !walk_null. reflexivity.
  - (* copied *)
    set (g := fun i => (fst (nth i acc (PNull, 0)), false)).
    assert (Eg : forall i, i < 16 -> fst (g i) = fst (f i)).
    { intros i Li. destruct (Hacc i Li) as (_ & Y). unfold g. cbn [fst]. rewrite (nth_error_nth acc i _ Y). reflexivity. }
    assert (Mn : mem (swap h p (PBr (next h)) (Some (BBr g)) (Some c) (S T)) (next h) = BBr g) by (apply sw_mem_new; auto).
    assert (C3 : forall y, Some c = Some y -> PBr c = PLeaf y \/ PBr c = PBr y) by (intros y E; injection E as ->; auto).
    destruct (compress_gen (PBr (next h)) (Some (BBr g))) as (O & I' & X' & Off & On).
    + cbn [ChtHeap.valid ChtHeap.later]. split; [eauto|]. split; [unfold ChtHeap.swap_pos; apply fup_same|]. rewrite (rtd_keep K V T h p (PBr (next h)) (Some (BBr g)) (Some c) (next h)); [exact (new_rtd K V hash T h pos I)|].
      exact (new_not_rx K V hash T h pos p (PBr c) (Some c) I Lk Cx C3).
    + intros g0 Q. injection Q as <-. split; [reflexivity|exact Eg].
    + intros d Q. discriminate Q.
    + intros i Li. split; intros; eauto.
    + cbn iota in O. do 2 eexists. split; [exact O|]. split; [exact I'|]. split; [exact X'|]. intros k. destruct (on_dec pos p k) as [(n & P)|Q]; [|exact (Off k Q)].
      rewrite (On k n P), (c_before k n P). rewrite P, prefix_len in L. replace (16 - n) with (S (15 - n)) by lia. rewrite (walk_br K V keq hash _ _ _ _ _ g Mn), (Eg _ (chunk_at_lt K hash k n)).
      apply (walk_same T h pos p (PBr (next h)) (Some (BBr g)) (Some c) I Lk k (15 - n) (S n) (LSlot c (chunk_at k n)) _ (snd (f (chunk_at k n)))).
      * split; [apply chunk_at_lt|]. split; [exact Rc|eauto].
      * cbn. rewrite Mc. destruct (f (chunk_at k n)); reflexivity.
      * cbn [lpath]. rewrite Pc, P, prefix_S. reflexivity.
      * intros d' Ld Q. rewrite P in Q. apply prefix_inj in Q. lia.
Qed.
End Compress.
End Map.
