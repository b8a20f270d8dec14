(** The linked list of the ordered index represents a list of pairs. *)
From Coq Require Import List Arith Bool Lia Permutation.
From Verif Require Import StordModel StordSpec.
Import ListNotations.

Section Proofs.
Variables K V : Type.
Variable keq : K -> K -> bool.
Hypothesis keq_ok : forall a b, keq a b = true <-> a = b.
Variable malloc : list nat -> nat.
Hypothesis malloc_ok : forall l, malloc l <> 0 /\ ~ In (malloc l) l.
Variable liberal : bool.
Notation heap := (heap K V).
Notation live := (@StordModel.live K V).
Notation nx := (@StordModel.nx K V).
Notation pv := (@StordModel.pv K V).
Notation ky := (@StordModel.ky K V).
Notation vl := (@StordModel.vl K V).

Fixpoint lst (x : nat) (l : list nat) : nat := match l with [] => x | a :: r => lst a r end.
Definition hdd (l : list nat) (y : nat) : nat := match l with [] => y | a :: _ => a end.

Lemma lst_snoc x l a : lst x (l ++ [a]) = a.
Proof. revert x. induction l as [|b l IH]; intros x; cbn; [reflexivity|apply IH]. Qed.
Lemma lst_in x l : In (lst x l) (x :: l).
Proof. revert x. induction l as [|b l IH]; intros x; cbn [lst]; [left; reflexivity|right; apply IH]. Qed.

(** the list as a path of [p] pointers from [x] through [l] to [y], with the [n] pointers back *)
Fixpoint seg (h : heap) (x : nat) (l : list nat) (y : nat) : Prop :=
  match l with
  | [] => pv h x = y /\ nx h y = x
  | a :: r => pv h x = a /\ nx h a = x /\ seg h a r y
  end.

Lemma seg_app h x l1 a l2 y : seg h x (l1 ++ a :: l2) y <-> seg h x l1 a /\ seg h a l2 y.
Proof.
  revert x. induction l1 as [|b l1 IH]; intros x; cbn [app seg].
  - tauto.
  - rewrite IH. tauto.
Qed.

Lemma seg_frame h h' x l y : (forall z, In z (x :: l) -> pv h' z = pv h z) -> (forall z, In z (l ++ [y]) -> nx h' z = nx h z) ->
  seg h x l y -> seg h' x l y.
Proof.
  revert x. induction l as [|a l IH]; intros x P N S; cbn [seg] in *.
  - rewrite P, N by (left; reflexivity). exact S.
  - destruct S as (A & B & S). split; [rewrite P by (left; reflexivity); exact A|]. split; [rewrite N by (left; reflexivity); exact B|].
    apply IH; [intros z Z; apply P; right; exact Z|intros z Z; apply N; right; exact Z|exact S].
Qed.

Lemma seg_mid h x l1 l2 y : seg h x (l1 ++ l2) y -> pv h (lst x l1) = hdd l2 y /\ nx h (hdd l2 y) = lst x l1.
Proof.
  revert x. induction l1 as [|a l1 IH]; intros x S; cbn [app lst] in *.
  - destruct l2; cbn [seg hdd] in *; tauto.
  - cbn [seg] in S. apply IH. tauto.
Qed.

Lemma seg_retarget h h' x l a b : seg h x l a -> NoDup (x :: l) ->
  (forall z, In z (x :: l) -> z <> lst x l -> pv h' z = pv h z) -> pv h' (lst x l) = b ->
  (forall z, In z l -> nx h' z = nx h z) -> nx h' b = lst x l -> seg h' x l b.
Proof.
  revert x. induction l as [|c l IH]; intros x S D P E N Q; cbn [seg lst] in *.
  - auto.
  - destruct S as (A & B & S). inversion D as [|? ? D1 D2]; clear D. split; [|split].
    + rewrite P; [exact A|left; reflexivity|]. intros Z. apply D1. pose proof (lst_in c l) as I. rewrite <- Z in I. exact I.
    + rewrite N by (left; reflexivity). exact B.
    + apply IH; [exact S|exact D2| |exact E| |exact Q].
      * intros z Z. apply P. right. exact Z.
      * intros z Z. apply N. right. exact Z.
Qed.

(** * Memory *)
Definition at_heap (h : heap) (hd : nat) (as_ fr ex : list nat) : Prop :=
  (forall a, In a (live h) <-> (a = hd /\ hd <> 0) \/ In a (as_ ++ fr ++ ex)) /\
  NoDup (as_ ++ fr ++ ex) /\ (hd <> 0 -> ~ In hd (as_ ++ fr ++ ex)) /\ ~ In 0 (as_ ++ fr ++ ex).

Fixpoint chain (h : heap) (c : nat) (fr : list nat) : Prop :=
  match fr with [] => c = 0 | a :: r => c = a /\ chain h (nx h a) r end.

Definition data (h : heap) (as_ : list nat) (l : list (K * V)) : Prop :=
  Forall2 (fun a x => ky h a = Some (fst x) /\ vl h a = Some (snd x)) as_ l.

(** sentinel [hd], unused nodes from [fl], memory [h]: the pairs [l] in the nodes [as_], unused nodes [fr],
    nodes [ex] in neither *)
Record rep (hd fl : nat) (h : heap) (l : list (K * V)) (as_ fr ex : list nat) : Prop := MkRep {
  rp_at : at_heap h hd as_ fr ex;
  rp_seg : if hd =? 0 then as_ = [] else seg h hd as_ hd;
  rp_free : chain h fl fr;
  rp_lib : liberal = false -> fr = [];
  rp_data : data h as_ l
}.

Lemma isl_true a (h : heap) : In a (live h) -> isl _ _ a h = true.
Proof. intros I. unfold isl. apply existsb_exists. exists a. split; [exact I|apply Nat.eqb_refl]. Qed.

Lemma bs {A B} (x : M K V A) (f : A -> M K V B) h a h' : x h = Some (a, h') -> bind K V x f h = f a h'.
Proof. intros E. unfold bind. rewrite E. reflexivity. Qed.
Lemma get_n_ok a (h : heap) : In a (live h) -> get_n K V a h = Some (nx h a, h).
Proof. intros I. unfold get_n. rewrite (isl_true _ _ I). reflexivity. Qed.
Lemma get_p_ok a (h : heap) : In a (live h) -> get_p K V a h = Some (pv h a, h).
Proof. intros I. unfold get_p. rewrite (isl_true _ _ I). reflexivity. Qed.
Lemma get_k_ok a (h : heap) k : In a (live h) -> ky h a = Some k -> get_k K V a h = Some (k, h).
Proof. intros I E. unfold get_k. rewrite (isl_true _ _ I), E. reflexivity. Qed.
Lemma get_v_ok a (h : heap) v : In a (live h) -> vl h a = Some v -> get_v K V a h = Some (v, h).
Proof. intros I E. unfold get_v. rewrite (isl_true _ _ I), E. reflexivity. Qed.
Lemma set_n_ok a x (h : heap) : In a (live h) -> set_n K V a x h = Some (tt, MkHeap K V (live h) (fup (nx h) a x) (pv h) (ky h) (vl h)).
Proof. intros I. unfold set_n. rewrite (isl_true _ _ I). reflexivity. Qed.
Lemma set_p_ok a x (h : heap) : In a (live h) -> set_p K V a x h = Some (tt, MkHeap K V (live h) (nx h) (fup (pv h) a x) (ky h) (vl h)).
Proof. intros I. unfold set_p. rewrite (isl_true _ _ I). reflexivity. Qed.
Lemma set_k_ok a x (h : heap) : In a (live h) -> set_k K V a x h = Some (tt, MkHeap K V (live h) (nx h) (pv h) (fup (ky h) a x) (vl h)).
Proof. intros I. unfold set_k. rewrite (isl_true _ _ I). reflexivity. Qed.
Lemma set_v_ok a x (h : heap) : In a (live h) -> set_v K V a x h = Some (tt, MkHeap K V (live h) (nx h) (pv h) (ky h) (fup (vl h) a x)).
Proof. intros I. unfold set_v. rewrite (isl_true _ _ I). reflexivity. Qed.
Lemma dealloc_ok a (h : heap) : In a (live h) ->
  dealloc K V a h = Some (tt, MkHeap K V (remove Nat.eq_dec a (live h)) (nx h) (pv h) (ky h) (vl h)).
Proof. intros I. unfold dealloc. rewrite (isl_true _ _ I). reflexivity. Qed.

Lemma fup_same {A} (f : nat -> A) a x : fup f a x a = x.
Proof. unfold fup. rewrite Nat.eqb_refl. reflexivity. Qed.
Lemma fup_other {A} (f : nat -> A) a x b : b <> a -> fup f a x b = f b.
Proof. intros N. unfold fup. destruct (b =? a) eqn:E; [apply Nat.eqb_eq in E; contradiction|reflexivity]. Qed.

Lemma chain_frame h h' c fr : (forall z, In z fr -> nx h' z = nx h z) -> chain h c fr -> chain h' c fr.
Proof.
  revert c. induction fr as [|a fr IH]; intros c F C; cbn [chain] in *; [exact C|]. destruct C as (-> & C). split; [reflexivity|].
  rewrite F by (left; reflexivity). apply IH; [|exact C]. intros z Z. apply F. right. exact Z.
Qed.

Lemma data_frame h h' as_ l : (forall z, In z as_ -> ky h' z = ky h z /\ vl h' z = vl h z) -> data h as_ l -> data h' as_ l.
Proof.
  intros F D. induction D as [|a x as_ l A D IH]; [constructor|]. constructor.
  - destruct (F a (or_introl eq_refl)) as (-> & ->). exact A.
  - apply IH. intros z Z. apply F. right. exact Z.
Qed.

Lemma nodup_disj (l1 l2 : list nat) z : NoDup (l1 ++ l2) -> In z l1 -> In z l2 -> False.
Proof.
  intros D I J. apply in_split in I. destruct I as (u & v & ->). rewrite <- app_assoc in D. cbn [app] in D. apply NoDup_remove_2 in D.
  apply D. rewrite !in_app_iff. tauto.
Qed.

Lemma NoDup_app_remove_l {A} (l l' : list A) : NoDup (l ++ l') -> NoDup l'.
Proof. induction l as [|a l IH]; intros D; [exact D|]. inversion D. auto. Qed.
Lemma NoDup_app_remove_r {A} (l l' : list A) : NoDup (l ++ l') -> NoDup l.
Proof.
  induction l as [|a l IH]; intros D; [constructor|]. inversion D as [|? ? N D']. constructor; [|auto].
  intros I. apply N. apply in_or_app. left. exact I.
Qed.
Lemma app_split {A} (a b c d : list A) : a ++ b = c ++ d -> length a = length c -> a = c /\ b = d.
Proof.
  revert c. induction a as [|x a IH]; intros [|y c] E L; try discriminate L; [auto|]. cbn [app length] in *.
  injection E as -> E. destruct (IH c E) as (-> & ->); [congruence|auto].
Qed.

Lemma data_len h as_ l : data h as_ l -> length as_ = length l.
Proof. intros D. induction D as [|? ? ? ? ? D IH]; [reflexivity|cbn; rewrite IH; reflexivity]. Qed.
Lemma data_app h as1 as2 l1 l2 : data h (as1 ++ as2) (l1 ++ l2) -> length as1 = length l1 -> data h as1 l1 /\ data h as2 l2.
Proof.
  revert l1. induction as1 as [|a as1 IH]; intros [|x l1] D L; try discriminate L; cbn [app] in D.
  - split; [constructor|exact D].
  - inversion D as [|? ? ? ? A D']; subst. destruct (IH l1 D') as (D1 & D2); [cbn in L; congruence|]. split; [constructor; assumption|exact D2].
Qed.

(** [unlink] takes a node out *)
Lemma unlink_ok hd fl h l1 x l2 as1 a as2 fr :
  rep hd fl h (l1 ++ x :: l2) (as1 ++ a :: as2) fr [] -> length as1 = length l1 ->
  exists h', unlink _ _ a h = Some (tt, h') /\ rep hd fl h' (l1 ++ l2) (as1 ++ as2) fr [a] /\
    ky h' = ky h /\ vl h' = vl h /\ live h' = live h.
Proof.
  intros [(L & D & H0 & Z) S C B Dt] LN. rewrite app_nil_r in *.
  destruct (hd =? 0) eqn:E0; [destruct as1; discriminate S|]. apply Nat.eqb_neq in E0. specialize (H0 E0).
  assert (La : In a (live h)) by (apply L; right; rewrite !in_app_iff; left; right; left; reflexivity).
  assert (DN : NoDup (as1 ++ a :: as2 ++ fr)) by (rewrite <- app_assoc in D; exact D).
  pose proof (NoDup_remove_1 _ _ _ DN) as D1. pose proof (NoDup_remove_2 _ _ _ DN) as Na. rewrite !in_app_iff in Na.
  assert (Ha : hd <> a). { intros ->. apply H0. rewrite !in_app_iff. left. right. left. reflexivity. }
  assert (Hh : ~ In hd as1 /\ ~ In hd as2 /\ ~ In hd fr).
  { repeat split; intros I; apply H0; rewrite !in_app_iff; cbn [In]; tauto. }
  destruct Hh as (Hh1 & Hh2 & Hh3).
  pose proof (seg_mid h hd as1 (a :: as2) hd S) as (_ & NA). cbn [hdd] in NA.
  pose proof (seg_mid h hd (as1 ++ [a]) as2 hd) as M2. rewrite <- app_assoc in M2. specialize (M2 S). rewrite lst_snoc in M2. destruct M2 as (PA & NB).
  set (b := hdd as2 hd) in *. set (c := lst hd as1) in *.
  assert (Ib : b = hd \/ In b as2) by (unfold b; destruct as2; cbn; [left; reflexivity|right; left; reflexivity]).
  assert (Ic : c = hd \/ In c as1) by (unfold c; destruct (lst_in hd as1) as [Q|Q]; [left; symmetry; exact Q|right; exact Q]).
  assert (Lb : In b (live h)).
  { apply L. destruct Ib as [->|Ib]; [left; auto|right; rewrite !in_app_iff; cbn [In]; tauto]. }
  assert (Lc : In c (live h)).
  { apply L. destruct Ic as [->|Ic]; [left; auto|right; rewrite !in_app_iff; cbn [In]; tauto]. }
  assert (ba : a <> b) by (destruct Ib as [->|Ib]; [auto|intros ->; tauto]).
  assert (cfr : ~ In c fr).
  { destruct Ic as [->|Ic]; [exact Hh3|]. intros I. apply (nodup_disj _ _ c D1 Ic). apply in_or_app. right. exact I. }
  assert (bfr : ~ In b fr).
  { destruct Ib as [->|Ib]; [exact Hh3|]. intros I. rewrite app_assoc in D1. apply (nodup_disj _ _ b D1); [apply in_or_app; right; exact Ib|exact I]. }
  set (h' := MkHeap K V (live h) (fup (nx h) b c) (fup (pv h) c b) (ky h) (vl h)).
  exists h'. split; [|split; [|repeat split]].
  - unfold unlink. rewrite (bs _ _ _ _ _ (get_p_ok _ _ La)), (bs _ _ _ _ _ (get_n_ok _ _ La)), PA, NA.
    rewrite (bs _ _ _ _ _ (set_n_ok _ c _ Lb)). rewrite (bs _ _ _ _ _ (get_n_ok a (MkHeap K V _ _ _ _ _) La)), (bs _ _ _ _ _ (get_p_ok a (MkHeap K V _ _ _ _ _) La)).
    cbn [live nx pv ky vl]. rewrite fup_other by exact ba. rewrite NA, PA. rewrite (set_p_ok c b (MkHeap K V _ _ _ _ _) Lc). reflexivity.
  - constructor.
    + split; [|split; [|split]].
      * intros z. cbn [live h']. rewrite L. rewrite !in_app_iff. cbn [In]. clear. tauto.
      * apply (Permutation_NoDup (l := a :: as1 ++ as2 ++ fr)).
        -- replace ((as1 ++ as2) ++ fr ++ [a]) with ((as1 ++ as2 ++ fr) ++ [a]) by (rewrite <- !app_assoc; reflexivity). apply Permutation_cons_append.
        -- constructor; [rewrite !in_app_iff; tauto|exact D1].
      * intros _ I. rewrite !in_app_iff in I. cbn [In] in I. intuition.
      * intros I. apply Z. rewrite !in_app_iff in *. cbn [In] in *. clear - I. tauto.
    + apply Nat.eqb_neq in E0. rewrite E0. apply seg_app in S. destruct S as (S1 & S2).
      assert (R : seg h' hd as1 b).
      { apply (seg_retarget h h' hd as1 a b); [exact S1| | | | |].
        - constructor; [exact Hh1|]. apply NoDup_app_remove_r in DN. exact DN.
        - intros z _ N. cbn [h' pv]. apply fup_other. exact N.
        - cbn [h' pv]. apply fup_same.
        - intros z I. cbn [h' nx]. apply fup_other. intros ->. destruct Ib as [Q|Q]; [congruence|].
          apply (nodup_disj _ _ b D1 I). apply in_or_app. left. exact Q.
        - cbn [h' nx]. apply fup_same. }
      destruct as2 as [|b' r]; [rewrite app_nil_r; exact R|]. cbn [hdd] in b. subst b. apply seg_app. split; [exact R|].
      cbn [seg] in S2. destruct S2 as (_ & _ & S2). apply (seg_frame h); [| |exact S2].
      * intros z I. cbn [h' pv]. apply fup_other. intros ->. destruct Ic as [Q|Q]; [apply Hh2; rewrite <- Q; exact I|].
        apply (nodup_disj _ _ c D1 Q). apply in_or_app. left. exact I.
      * intros z I. cbn [h' nx]. apply fup_other. intros ->. apply in_app_or in I. destruct I as [I|[I|[]]].
        -- rewrite app_assoc in D1. apply NoDup_app_remove_r in D1. apply NoDup_app_remove_l in D1. inversion D1. contradiction.
        -- apply Hh2. rewrite I. left. reflexivity.
    + apply (chain_frame h); [|exact C]. intros z I. cbn [h' nx]. apply fup_other. intros ->. exact (bfr I).
    + exact B.
    + destruct (data_app _ _ _ _ _ Dt LN) as (F1 & F2). inversion F2; subst. apply Forall2_app; assumption.
Qed.

(** [link] puts a node at the end *)
Lemma link_ok hd fl h l as_ fr a k v : rep hd fl h l as_ fr [a] -> hd <> 0 -> ky h a = Some k -> vl h a = Some v ->
  exists h', link _ _ hd a h = Some (tt, h') /\ rep hd fl h' (l ++ [(k, v)]) (as_ ++ [a]) fr [] /\
    ky h' = ky h /\ vl h' = vl h /\ live h' = live h.
Proof.
  intros [(L & D & H0 & Z) S C B Dt] E0 Ka Va. specialize (H0 E0). pose proof E0 as E0'. apply Nat.eqb_neq in E0'. rewrite E0' in S.
  assert (La : In a (live h)) by (apply L; right; rewrite !in_app_iff; right; right; left; reflexivity).
  assert (Lh : In hd (live h)) by (apply L; left; auto).
  assert (DN : NoDup ((as_ ++ fr) ++ a :: [])) by (rewrite <- app_assoc; exact D).
  pose proof (NoDup_remove_1 _ _ _ DN) as D1. pose proof (NoDup_remove_2 _ _ _ DN) as Na. rewrite app_nil_r in D1, Na. rewrite in_app_iff in Na.
  assert (Hh : hd <> a /\ ~ In hd as_ /\ ~ In hd fr).
  { repeat split; [intros ->|intros I|intros I]; apply H0; rewrite !in_app_iff; cbn [In]; clear Dt; tauto. }
  destruct Hh as (Ha & Hh1 & Hh2).
  pose proof (seg_mid h hd as_ [] hd) as M. rewrite app_nil_r in M. destruct (M S) as (PC & NH). clear M. cbn [hdd] in PC, NH.
  set (c := lst hd as_) in *.
  assert (Ic : c = hd \/ In c as_) by (unfold c; destruct (lst_in hd as_) as [Q|Q]; [left; symmetry; exact Q|right; exact Q]).
  assert (Lc : In c (live h)).
  { apply L. destruct Ic as [->|Ic]; [left; auto|right; rewrite !in_app_iff; left; exact Ic]. }
  assert (ca : c <> a) by (destruct Ic as [->|Ic]; [auto|intros Q; rewrite Q in Ic; tauto]).
  set (h' := MkHeap K V (live h) (fup (fup (nx h) a c) hd a) (fup (fup (pv h) a hd) c a) (ky h) (vl h)).
  exists h'. split; [|split; [|repeat split]].
  - unfold link. rewrite (bs _ _ _ _ _ (get_n_ok _ _ Lh)), NH.
    rewrite (bs _ _ _ _ _ (set_n_ok a c _ La)). rewrite (bs _ _ _ _ _ (set_p_ok a hd (MkHeap K V _ _ _ _ _) La)).
    rewrite (bs _ _ _ _ _ (set_n_ok hd a (MkHeap K V _ _ _ _ _) Lh)). rewrite (bs _ _ _ _ _ (get_n_ok a (MkHeap K V _ _ _ _ _) La)).
    cbn [live nx pv ky vl]. rewrite fup_other by auto. rewrite fup_same. rewrite (set_p_ok c a (MkHeap K V _ _ _ _ _) Lc). reflexivity.
  - constructor.
    + split; [|split; [|split]].
      * intros z. cbn [live h']. rewrite L. rewrite !in_app_iff. cbn [In]. clear. tauto.
      * rewrite app_nil_r. apply (Permutation_NoDup (l := as_ ++ fr ++ [a])); [|exact D].
        rewrite <- app_assoc. apply Permutation_app_head. apply Permutation_sym. apply Permutation_cons_append.
      * intros _ I. apply H0. rewrite !in_app_iff in *. cbn [In] in *. clear - I. tauto.
      * intros I. apply Z. rewrite !in_app_iff in *. cbn [In] in *. clear - I. tauto.
    + rewrite E0'. apply seg_app. split.
      * apply (seg_retarget h h' hd as_ hd a S).
        -- constructor; [exact Hh1|]. apply NoDup_app_remove_r in D. exact D.
        -- intros z I N. cbn [h' pv]. rewrite fup_other by exact N. apply fup_other. intros ->. destruct I as [I|I]; [congruence|tauto].
        -- cbn [h' pv]. apply fup_same.
        -- intros z I. cbn [h' nx]. rewrite !fup_other; [reflexivity| |]; intros ->; tauto.
        -- cbn [h' nx]. rewrite fup_other by auto. apply fup_same.
      * cbn [seg h' pv nx]. rewrite (fup_other _ c) by auto. rewrite !fup_same. auto.
    + apply (chain_frame h); [|exact C]. intros z I. cbn [h' nx]. rewrite !fup_other; [reflexivity| |]; intros ->; tauto.
    + exact B.
    + apply Forall2_app; [exact Dt|]. constructor; [|constructor]. auto.
Qed.

Lemma sentinel_ok i h l as_ fr : rep (ih i) (fl i) h l as_ fr [] ->
  exists i' h', ensure_sentinel K V malloc i h = Some (i', h') /\ im i' = im i /\ ih i' <> 0 /\ rep (ih i') (fl i') h' l as_ fr [].
Proof.
  intros R. unfold ensure_sentinel. destruct (ih i =? 0) eqn:E0.
  - destruct R as [(L & D & H0 & Z) S C B Dt]. rewrite E0 in S. subst as_. inversion Dt; subst l. apply Nat.eqb_eq in E0.
    destruct (malloc_ok (live h)) as (M1 & M2). set (a := malloc (live h)) in *.
    eexists _, _. split.
    + unfold new_block. unfold bind at 1. fold a. set (h1 := MkHeap K V (a :: live h) _ _ _ _).
      assert (La : In a (live h1)) by (left; reflexivity).
      rewrite (bs _ _ _ _ _ (set_p_ok a a h1 La)). set (h2 := MkHeap K V (live h1) _ _ _ _). assert (La2 : In a (live h2)) by exact La.
      rewrite (bs _ _ _ _ _ (set_n_ok a a h2 La2)). reflexivity.
    + cbn [im ih fl]. split; [reflexivity|]. split; [exact M1|]. constructor.
      * split; [|split; [|split]].
        -- intros z. cbn [live In]. rewrite L. split; [intros [<-|[(-> & X)|X]]; [left; auto|contradiction|right; exact X]|].
           intros [(-> & _)|X]; [left; reflexivity|right; right; exact X].
        -- exact D.
        -- intros _ I. apply M2. apply L. right. exact I.
        -- exact Z.
      * apply Nat.eqb_neq in M1. rewrite M1. cbn [seg nx pv]. rewrite !fup_same. auto.
      * apply (chain_frame h); [|exact C]. intros z I. cbn [nx]. apply fup_other. intros ->. apply M2. apply L. right. rewrite app_nil_r. exact I.
      * exact B.
      * constructor.
  - exists i, h. split; [reflexivity|]. split; [reflexivity|]. split; [apply Nat.eqb_neq; exact E0|exact R].
Qed.

Lemma write_ok a k v (h : heap) : In a (live h) ->
  write_node K V a k v h = Some (tt, MkHeap K V (live h) (fup (nx h) a 0) (fup (pv h) a 0) (fup (ky h) a (Some k)) (fup (vl h) a (Some v))).
Proof.
  intros La. unfold write_node. rewrite (bs _ _ _ _ _ (set_k_ok a _ h La)). rewrite (bs _ _ _ _ _ (set_v_ok a _ (MkHeap K V _ _ _ _ _) La)).
  rewrite (bs _ _ _ _ _ (set_n_ok a _ (MkHeap K V _ _ _ _ _) La)). rewrite (set_p_ok a _ (MkHeap K V _ _ _ _ _) La). reflexivity.
Qed.

Lemma alloc_ok i h l as_ fr k v : rep (ih i) (fl i) h l as_ fr [] ->
  exists i' a h' fr', alloc K V malloc liberal i k v h = Some ((i', a), h') /\ im i' = im i /\ ih i' = ih i /\
    ky h' a = Some k /\ vl h' a = Some v /\ rep (ih i') (fl i') h' l as_ fr' [a].
Proof.
  intros [(L & D & H0 & Z) S C B Dt]. unfold alloc. rewrite app_nil_r in *.
  destruct (liberal && negb (fl i =? 0)) eqn:E.
  - apply andb_true_iff in E. destruct E as (EL & E0). apply negb_true_iff, Nat.eqb_neq in E0.
    destruct fr as [|f fr]; [contradiction|]. cbn [chain] in C. destruct C as (<- & C). set (f := fl i) in *.
    assert (Lf : In f (live h)) by (apply L; right; rewrite in_app_iff; cbn [In]; tauto).
    rewrite (bs _ _ _ _ _ (get_n_ok f h Lf)). rewrite (bs _ _ _ _ _ (write_ok f k v h Lf)). set (h' := MkHeap K V _ _ _ _ _).
    exists (MkIdx (im i) (ih i) (nx h f)), f, h', fr. cbn [im ih fl]. repeat (split; [first [reflexivity|cbn [h' ky vl]; apply fup_same]|]).
    pose proof (NoDup_remove_2 _ _ _ D) as Nf. rewrite in_app_iff in Nf.
    constructor.
    + split; [|split; [|split]].
      * intros z. cbn [live h']. rewrite L. rewrite !in_app_iff. cbn [In]. clear. tauto.
      * apply (Permutation_NoDup (l := as_ ++ f :: fr)); [|exact D]. apply Permutation_app_head, Permutation_cons_append.
      * intros N I. apply (H0 N). rewrite !in_app_iff in *. cbn [In] in *. clear - I. tauto.
      * intros I. apply Z. rewrite !in_app_iff in *. cbn [In] in *. clear - I. tauto.
    + destruct (ih i =? 0) eqn:E1; [exact S|]. apply Nat.eqb_neq in E1. specialize (H0 E1).
      assert (hf : ih i <> f) by (intros Q; apply H0; rewrite Q, in_app_iff; cbn [In]; tauto).
      apply (seg_frame h); [| |exact S].
      * intros z I. cbn [h' pv]. apply fup_other. intros ->. destruct I as [I|I]; tauto.
      * intros z I. cbn [h' nx]. apply fup_other. intros ->. apply in_app_or in I. destruct I as [I|[I|[]]]; tauto.
    + apply (chain_frame h); [|exact C]. intros z I. cbn [h' nx]. apply fup_other. intros ->. tauto.
    + intros Q. congruence.
    + apply (data_frame h); [|exact Dt]. intros z I. cbn [h' ky vl]. rewrite !fup_other; [auto| |]; intros ->; tauto.
  - assert (F : fr = []).
    { destruct liberal; [|apply B; reflexivity]. cbn [andb] in E. apply negb_false_iff, Nat.eqb_eq in E. destruct fr as [|f fr]; [reflexivity|].
      cbn [chain] in C. exfalso. apply Z. rewrite in_app_iff. right. left. destruct C as (<- & _). exact E. }
    subst fr. rewrite app_nil_r in *.
    destruct (malloc_ok (live h)) as (M1 & M2). set (a := malloc (live h)) in *.
    unfold new_block. unfold bind at 1. fold a. set (h1 := MkHeap K V (a :: live h) _ _ _ _).
    assert (La : In a (live h1)) by (left; reflexivity).
    rewrite (bs _ _ _ _ _ (write_ok a k v h1 La)). set (h' := MkHeap K V _ _ _ _ _).
    exists i, a, h', []. repeat (split; [first [reflexivity|cbn [h' ky vl]; apply fup_same]|]).
    assert (Na : ~ In a as_) by (intros I; apply M2, L; right; exact I).
    constructor.
    + cbn [app]. split; [|split; [|split]].
      * intros z. cbn [live h' h1 In]. rewrite L. rewrite !in_app_iff. cbn [In]. clear. tauto.
      * apply (Permutation_NoDup (l := a :: as_)); [apply Permutation_cons_append|constructor; assumption].
      * intros N I. apply in_app_or in I. destruct I as [I|[I|[]]]; [exact (H0 N I)|]. apply M2. apply L. left. auto.
      * intros I. apply in_app_or in I. destruct I as [I|[I|[]]]; [exact (Z I)|congruence].
    + destruct (ih i =? 0) eqn:E1; [exact S|]. apply Nat.eqb_neq in E1.
      assert (hf : ih i <> a) by (intros Q; apply M2, L; left; auto).
      apply (seg_frame h); [| |exact S].
      * intros z I. cbn [h' h1 pv]. apply fup_other. intros ->. destruct I as [I|I]; tauto.
      * intros z I. cbn [h' h1 nx]. apply fup_other. intros ->. apply in_app_or in I. destruct I as [I|[I|[]]]; tauto.
    + exact C.
    + reflexivity.
    + apply (data_frame h); [|exact Dt]. intros z I. cbn [h' h1 ky vl]. rewrite !fup_other; [auto| | | |]; intros ->; tauto.
Qed.

Lemma free_ok i h l as_ fr a : rep (ih i) (fl i) h l as_ fr [a] ->
  exists i' h' fr', free K V liberal i a h = Some (i', h') /\ im i' = im i /\ ih i' = ih i /\ rep (ih i') (fl i') h' l as_ fr' [].
Proof.
  intros [(L & D & H0 & Z) S C B Dt]. unfold free.
  assert (La : In a (live h)) by (apply L; right; rewrite !in_app_iff; right; right; left; reflexivity).
  assert (DN : NoDup ((as_ ++ fr) ++ a :: [])) by (rewrite <- app_assoc; exact D).
  pose proof (NoDup_remove_1 _ _ _ DN) as D1. pose proof (NoDup_remove_2 _ _ _ DN) as Na. rewrite app_nil_r in D1, Na. rewrite in_app_iff in Na.
  assert (a0 : a <> 0) by (intros Q; apply Z; rewrite !in_app_iff; right; right; left; exact Q).
  assert (ha : ih i <> 0 -> ih i <> a) by (intros N Q; apply (H0 N); rewrite Q, !in_app_iff; right; right; left; reflexivity).
  destruct liberal eqn:EL.
  - rewrite (bs _ _ _ _ _ (set_n_ok a _ h La)). set (h' := MkHeap K V _ _ _ _ _).
    exists (MkIdx (im i) (ih i) a), h', (a :: fr). cbn [im ih fl]. repeat (split; [reflexivity|]). constructor.
    + split; [|split; [|split]].
      * intros z. cbn [live h']. rewrite L. rewrite !in_app_iff. cbn [In]. clear. tauto.
      * apply (Permutation_NoDup (l := as_ ++ fr ++ [a])); [|exact D]. apply Permutation_app_head. rewrite app_nil_r.
        apply Permutation_sym, Permutation_cons_append.
      * intros N I. apply (H0 N). rewrite !in_app_iff in *. cbn [In] in *. clear - I. tauto.
      * intros I. apply Z. rewrite !in_app_iff in *. cbn [In] in *. clear - I. tauto.
    + destruct (ih i =? 0) eqn:E1; [exact S|]. apply Nat.eqb_neq in E1. specialize (ha E1).
      apply (seg_frame h); [reflexivity| |exact S].
      intros z I. cbn [h' nx]. apply fup_other. intros ->. apply in_app_or in I. destruct I as [I|[I|[]]]; tauto.
    + cbn [chain]. split; [reflexivity|]. cbn [h' nx]. rewrite fup_same. apply (chain_frame h); [|exact C].
      intros z I. cbn [nx]. apply fup_other. intros ->. tauto.
    + intros Q. congruence.
    + apply (data_frame h); [auto|exact Dt].
  - rewrite (bs _ _ _ _ _ (dealloc_ok a h La)). set (h' := MkHeap K V _ _ _ _ _).
    rewrite (B eq_refl) in *. exists i, h', []. repeat (split; [reflexivity|]). constructor;
      [|destruct (ih i =? 0); [exact S|apply (seg_frame h); auto]|exact C|auto|apply (data_frame h); auto].
    cbn [app] in *. rewrite !app_nil_r in *. split; [|split; [|split]].
    + intros z. cbn [live h' app]. rewrite app_nil_r. split.
      * intros I. apply in_remove in I. destruct I as (I & N). apply L in I. rewrite in_app_iff in I. cbn [In] in I. destruct I as [I|[I|[I|[]]]]; [auto|auto|congruence].
      * intros I. apply in_in_remove.
        -- intros ->. destruct I as [(Q & N)|I]; [exact (ha N (eq_sym Q))|tauto].
        -- apply L. rewrite in_app_iff. tauto.
    + cbn [app]. rewrite app_nil_r. exact D1.
    + cbn [app]. rewrite app_nil_r. intros N I. apply (H0 N). rewrite in_app_iff. tauto.
    + cbn [app]. rewrite app_nil_r. intros I. apply Z. rewrite in_app_iff. tauto.
Qed.

Lemma cleanup_loop_ok fr : forall fuel c (h : heap), length fr <= fuel -> chain h c fr -> NoDup fr -> ~ In 0 fr -> (forall a, In a fr -> In a (live h)) ->
  exists lv, cleanup_loop K V fuel c h = Some (tt, MkHeap K V lv (nx h) (pv h) (ky h) (vl h)) /\
    (forall a, In a lv <-> In a (live h) /\ ~ In a fr).
Proof.
  induction fr as [|f fr IH]; intros fuel c h F C D Z L; cbn [chain] in C.
  - subst c. exists (live h). split; [|intros a; cbn; tauto]. destruct h. destruct fuel; reflexivity.
  - destruct C as (-> & C). destruct fuel as [|fuel]; [cbn in F; lia|]. cbn [cleanup_loop].
    assert (f0 : f <> 0) by (intros Q; apply Z; left; exact Q). apply Nat.eqb_neq in f0. rewrite f0.
    assert (Lf : In f (live h)) by (apply L; left; reflexivity). inversion D as [|? ? D1 D2]; subst.
    rewrite (bs _ _ _ _ _ (get_n_ok f h Lf)), (bs _ _ _ _ _ (dealloc_ok f h Lf)).
    set (h' := MkHeap K V _ _ _ _ _).
    destruct (IH fuel (nx h f) h') as (lv & E & Q).
    + cbn in F. lia.
    + apply (chain_frame h); auto.
    + exact D2.
    + intros I. apply Z. right. exact I.
    + intros a I. cbn [h' live]. apply in_in_remove; [intros ->; contradiction|]. apply L. right. exact I.
    + exists lv. split; [exact E|]. intros a. rewrite Q. cbn [h' live In]. split.
      * intros (I & N). apply in_remove in I. destruct I as (I & J). split; [exact I|]. intros [X|X]; [congruence|contradiction].
      * intros (I & N). split; [|tauto]. apply in_in_remove; [intros ->; tauto|exact I].
Qed.

Lemma at_len h hd as_ fr ex : at_heap h hd as_ fr ex -> length as_ <= length (live h) /\ length fr <= length (live h).
Proof.
  intros (L & D & _). split; apply NoDup_incl_length.
  - apply NoDup_app_remove_r in D. exact D.
  - intros z I. apply L. right. rewrite in_app_iff. tauto.
  - apply NoDup_app_remove_l, NoDup_app_remove_r in D. exact D.
  - intros z I. apply L. right. rewrite !in_app_iff. tauto.
Qed.

Lemma at_nil h hd as_ : (forall a, In a (live h) <-> (a = hd /\ hd <> 0) \/ In a as_) -> NoDup as_ -> (hd <> 0 -> ~ In hd as_) -> ~ In 0 as_ -> at_heap h hd as_ [] [].
Proof. intros A B C D. unfold at_heap. cbn [app]. rewrite app_nil_r. auto. Qed.

Lemma cleanup_ok i h l as_ fr : rep (ih i) (fl i) h l as_ fr [] ->
  exists i' h', cleanup K V liberal i h = Some (i', h') /\ im i' = im i /\ ih i' = ih i /\ rep (ih i') (fl i') h' l as_ [] [].
Proof.
  intros [A S C B Dt]. unfold cleanup. destruct liberal eqn:EL.
  - pose proof (at_len _ _ _ _ _ A) as (_ & LF). destruct A as (L & D & H0 & Z). rewrite app_nil_r in *.
    destruct (cleanup_loop_ok fr (length (live h)) (fl i) h LF C) as (lv & E & Q).
    + apply NoDup_app_remove_l in D. exact D.
    + intros I. apply Z. rewrite in_app_iff. tauto.
    + intros a I. apply L. rewrite in_app_iff. tauto.
    + eexists _, _. split; [rewrite (bs _ _ _ _ _ E); reflexivity|]. cbn [im ih fl]. repeat (split; [reflexivity|]). constructor.
      * apply at_nil.
        -- intros a. cbn [live]. rewrite Q, L, in_app_iff. split; [tauto|]. intros [(-> & N)|I].
           ++ split; [auto|]. intros I. apply (H0 N). rewrite in_app_iff. tauto.
           ++ split; [auto|]. intros J. exact (nodup_disj _ _ a D I J).
        -- apply NoDup_app_remove_r in D. exact D.
        -- intros N I. apply (H0 N). rewrite in_app_iff. tauto.
        -- intros I. apply Z. rewrite in_app_iff. tauto.
      * destruct (ih i =? 0); [exact S|apply (seg_frame h); auto].
      * reflexivity.
      * auto.
      * apply (data_frame h); auto.
  - rewrite (B eq_refl) in *. exists i, h. repeat (split; [reflexivity|]). constructor; auto.
Qed.

(** * Lookup *)
Lemma lookup_ok k m (h : heap) as_ l : data h as_ l -> (forall a, In a as_ -> In a (live h)) -> (forall a, In a m -> In a as_) ->
  (exists a as1 as2 l1 v l2, lookup K V keq k m h = Some (Some a, h) /\ as_ = as1 ++ a :: as2 /\ l = l1 ++ (k, v) :: l2 /\ length as1 = length l1) \/
  (lookup K V keq k m h = Some (None, h) /\ forall a, In a m -> ky h a <> Some k).
Proof.
  intros D L. induction m as [|a m IH]; intros I; cbn [lookup].
  - right. split; [reflexivity|intros a []].
  - assert (Ia : In a as_) by (apply I; left; reflexivity). pose proof (L a Ia) as La.
    destruct (in_split _ _ Ia) as (as1 & as2 & E). 
    assert (X : exists l1 k' v l2, l = l1 ++ (k', v) :: l2 /\ length as1 = length l1).
    { pose proof (data_len _ _ _ D) as DL. rewrite E, app_length in DL. cbn [length] in DL.
      exists (firstn (length as1) l). destruct (skipn (length as1) l) as [|(k', v) l2] eqn:SK.
      - apply (f_equal (@length _)) in SK. rewrite skipn_length in SK. cbn in SK. lia.
      - exists k', v, l2. split; [rewrite <- SK; symmetry; apply firstn_skipn|]. rewrite firstn_length. lia. }
    destruct X as (l1 & k' & v & l2 & E2 & LN). rewrite E, E2 in D. destruct (data_app _ _ _ _ _ D LN) as (D1 & D2). inversion D2 as [|? ? ? ? (Ka & Va) D3]; subst. cbn [fst snd] in *.
    rewrite (bs _ _ _ _ _ (get_k_ok a h k' La Ka)). destruct (keq k' k) eqn:EQ.
    + apply keq_ok in EQ. subst k'. left. exists a, as1, as2, l1, v, l2. auto.
    + destruct IH as [IH|(IH & N)]; [intros b J; apply I; right; exact J|left; exact IH|]. right. split; [exact IH|].
      intros b [<-|J]; [|apply N; exact J]. rewrite Ka. intros Q. injection Q as ->. rewrite (proj2 (keq_ok k k) eq_refl) in EQ. discriminate EQ.
Qed.

(** * Giving the nodes back *)
Lemma drop_loop_ok as_ : forall fuel hd (h : heap),
  length as_ <= fuel -> (forall l1 c l2, as_ = l1 ++ c :: l2 -> nx h c = lst hd l1) -> NoDup as_ -> ~ In hd as_ ->
  (forall a, In a as_ -> In a (live h)) -> (forall a, In a as_ -> ky h a <> None /\ vl h a <> None) ->
  exists lv, drop_loop K V fuel hd (lst hd as_) h = Some (tt, MkHeap K V lv (nx h) (pv h) (ky h) (vl h)) /\
    (forall a, In a lv <-> In a (live h) /\ ~ In a as_).
Proof.
  induction as_ as [|c as_ IH] using rev_ind; intros fuel hd h F N D Nh L KV.
  - exists (live h). split; [|intros a; cbn; tauto]. cbn [lst]. destruct h. destruct fuel; cbn [drop_loop]; rewrite Nat.eqb_refl; reflexivity.
  - rewrite app_length in F. cbn [length] in F. destruct fuel as [|fuel]; [lia|]. rewrite lst_snoc. cbn [drop_loop].
    assert (Ic : In c (as_ ++ [c])) by (rewrite in_app_iff; cbn; tauto).
    assert (ch : c <> hd) by (intros ->; contradiction). apply Nat.eqb_neq in ch. rewrite ch.
    pose proof (L c Ic) as Lc. destruct (KV c Ic) as (Kc & Vc).
    destruct (ky h c) as [k|] eqn:EK; [|contradiction]. destruct (vl h c) as [v|] eqn:EV; [|contradiction].
    rewrite (bs _ _ _ _ _ (get_n_ok c h Lc)), (bs _ _ _ _ _ (get_k_ok c h k Lc EK)), (bs _ _ _ _ _ (get_v_ok c h v Lc EV)), (bs _ _ _ _ _ (dealloc_ok c h Lc)).
    rewrite (N as_ c [] eq_refl). set (h' := MkHeap K V _ _ _ _ _).
    pose proof (NoDup_remove_1 _ _ _ D) as D1. pose proof (NoDup_remove_2 _ _ _ D) as Nc. rewrite app_nil_r in D1, Nc.
    assert (sub : forall a, In a as_ -> In a (as_ ++ [c])) by (intros a I; rewrite in_app_iff; tauto).
    destruct (IH fuel hd h') as (lv & E & Q).
    + lia.
    + intros l1 d l2 E. cbn [h' nx]. apply (N l1 d (l2 ++ [c])). rewrite E, <- app_assoc. reflexivity.
    + exact D1.
    + intros I. apply Nh, sub, I.
    + intros a I. cbn [h' live]. apply in_in_remove; [intros ->; contradiction|]. apply L, sub, I.
    + intros a I. apply (KV a), sub, I.
    + exists lv. split; [exact E|]. intros a. rewrite Q. cbn [h' live]. rewrite in_app_iff. cbn [In]. split.
      * intros (I & J). apply in_remove in I. destruct I as (I & X). split; [exact I|]. intros [Y|[Y|[]]]; [contradiction|congruence].
      * intros (I & J). split; [|tauto]. apply in_in_remove; [intros ->; tauto|exact I].
Qed.

Lemma data_some h as_ l a : data h as_ l -> In a as_ -> ky h a <> None /\ vl h a <> None.
Proof.
  intros D. induction D as [|b x as_ l (A & B) D IH]; intros I; [destruct I|]. destruct I as [I|I]; [subst b; rewrite A, B; split; discriminate|exact (IH I)].
Qed.

Lemma drop_nodes_ok hd fl h l as_ fr : rep hd fl h l as_ fr [] -> hd <> 0 ->
  exists lv, drop_nodes K V hd h = Some (tt, MkHeap K V lv (nx h) (pv h) (ky h) (vl h)) /\
    (forall a, In a lv <-> a = hd \/ In a fr).
Proof.
  intros [A S C B Dt] H. pose proof (at_len _ _ _ _ _ A) as (LA & _). destruct A as (L & D & H0 & Z). rewrite app_nil_r in *.
  specialize (H0 H). rewrite in_app_iff in H0. pose proof H as H'. apply Nat.eqb_neq in H'. rewrite H' in S.
  assert (Lh : In hd (live h)) by (apply L; left; auto).
  unfold drop_nodes. rewrite (bs _ _ _ _ _ (get_n_ok hd h Lh)).
  pose proof (seg_mid h hd as_ [] hd) as M. rewrite app_nil_r in M. destruct (M S) as (_ & NH). cbn [hdd] in NH. rewrite NH.
  destruct (drop_loop_ok as_ (length (live h)) hd h LA) as (lv & E & Q).
  - intros l1 c l2 ->. destruct (seg_mid h hd l1 (c :: l2) hd S) as (_ & X). exact X.
  - apply NoDup_app_remove_r in D. exact D.
  - tauto.
  - intros a I. apply L. right. rewrite in_app_iff. tauto.
  - intros a I. exact (data_some _ _ _ _ Dt I).
  - exists lv. split; [exact E|]. intros a. rewrite Q, L, in_app_iff. split.
    + intros ([(-> & _)|[I|I]] & N); [left; reflexivity|contradiction|right; exact I].
    + intros [->|I]; [split; [left; auto|tauto]|]. split; [tauto|]. intros J. exact (nodup_disj _ _ a D J I).
Qed.

(** * The index *)
Definition Rep (i : idx) (h : heap) (l : list (K * V)) : Prop :=
  exists as_ fr, rep (ih i) (fl i) h l as_ fr [] /\ Permutation (im i) as_ /\ NoDup (map fst l).

Lemma Rep_empty h : live h = [] -> Rep empty_idx h [].
Proof.
  intros E. exists [], []. split; [|split; constructor]. constructor; cbn [empty_idx ih fl im]; try reflexivity; [|constructor].
  apply at_nil; [|constructor|intros _ []|intros []]. intros a. rewrite E. cbn. split; [intros []|intros [(_ & X)|[]]; contradiction].
Qed.

(** ** facts about the specification *)
Lemma keq_refl k : keq k k = true.
Proof. apply keq_ok. reflexivity. Qed.
Lemma keq_neq k k' : k <> k' -> keq k k' = false.
Proof. intros N. destruct (keq k k') eqn:E; [apply keq_ok in E; contradiction|reflexivity]. Qed.
Lemma sget_none k (l : list (K * V)) : ~ In k (map fst l) -> sget K V keq k l = None.
Proof.
  induction l as [|(k', v) l IH]; intros N; [reflexivity|]. unfold sget in *. cbn [find fst map In] in *.
  rewrite keq_neq by tauto. apply IH. tauto.
Qed.
Lemma sdel_none k (l : list (K * V)) : ~ In k (map fst l) -> sdel K V keq k l = l.
Proof.
  induction l as [|(k', v) l IH]; intros N; [reflexivity|]. unfold sdel in *. cbn [filter fst map In] in *.
  rewrite keq_neq by tauto. cbn [negb]. rewrite IH by tauto. reflexivity.
Qed.
Lemma sput_none k v (l : list (K * V)) : ~ In k (map fst l) -> sput K V keq k v l = l.
Proof.
  induction l as [|(k', v') l IH]; intros N; [reflexivity|]. unfold sput in *. cbn [map fst In] in *.
  rewrite keq_neq by tauto. rewrite IH by tauto. reflexivity.
Qed.
Lemma keys_mid (l1 : list (K * V)) k (v : V) l2 : NoDup (map fst (l1 ++ (k, v) :: l2)) -> ~ In k (map fst l1) /\ ~ In k (map fst l2) /\ NoDup (map fst (l1 ++ l2)).
Proof.
  intros D. rewrite map_app in D. cbn [map fst] in D. pose proof (NoDup_remove_1 _ _ _ D) as D1. apply NoDup_remove_2 in D.
  rewrite in_app_iff in D. rewrite map_app. tauto.
Qed.
Lemma sget_mid l1 k v l2 : ~ In k (map fst l1) -> sget K V keq k (l1 ++ (k, v) :: l2) = Some v.
Proof.
  induction l1 as [|(k', v') l1 IH]; intros N; unfold sget in *; cbn [app find fst map In] in *.
  - rewrite keq_refl. reflexivity.
  - rewrite keq_neq by tauto. apply IH. tauto.
Qed.
Lemma sdel_mid l1 k v l2 : ~ In k (map fst l1) -> ~ In k (map fst l2) -> sdel K V keq k (l1 ++ (k, v) :: l2) = l1 ++ l2.
Proof.
  intros N1 N2. unfold sdel. rewrite filter_app. cbn [filter fst]. rewrite keq_refl. cbn [negb].
  fold (sdel K V keq k l1). fold (sdel K V keq k l2). rewrite !sdel_none by assumption. reflexivity.
Qed.
Lemma sput_mid l1 k v v' l2 : ~ In k (map fst l1) -> ~ In k (map fst l2) -> sput K V keq k v' (l1 ++ (k, v) :: l2) = l1 ++ (k, v') :: l2.
Proof.
  intros N1 N2. unfold sput. rewrite map_app. cbn [map fst]. rewrite keq_refl.
  fold (sput K V keq k v' l1). fold (sput K V keq k v' l2). rewrite !sput_none by assumption. reflexivity.
Qed.

(** ** lookup *)
Lemma find_ok i h l as_ fr k : rep (ih i) (fl i) h l as_ fr [] -> Permutation (im i) as_ -> NoDup (map fst l) ->
  (exists a as1 as2 l1 v l2, lookup K V keq k (im i) h = Some (Some a, h) /\ as_ = as1 ++ a :: as2 /\ l = l1 ++ (k, v) :: l2 /\ length as1 = length l1 /\
     In a (live h) /\ ky h a = Some k /\ vl h a = Some v /\ ~ In k (map fst l1) /\ ~ In k (map fst l2) /\ NoDup (map fst (l1 ++ l2))) \/
  (lookup K V keq k (im i) h = Some (None, h) /\ ~ In k (map fst l)).
Proof.
  intros [(L & D & H0 & Z) S C B Dt] P ND.
  destruct (lookup_ok k (im i) h as_ l Dt) as [(a & as1 & as2 & l1 & v & l2 & E & EA & EL & LN)|(E & N)].
  - intros a I. apply L. right. rewrite in_app_iff. tauto.
  - intros a I. exact (Permutation_in _ P I).
  - left. exists a, as1, as2, l1, v, l2. repeat (split; [assumption|]). split.
    + apply L. right. rewrite EA, !in_app_iff. cbn [In]. tauto.
    + rewrite EA, EL in Dt. destruct (data_app _ _ _ _ _ Dt LN) as (_ & D2). inversion D2 as [|? ? ? ? (Ka & Va) _]; subst. cbn [fst snd] in *.
      repeat (split; [assumption|]). apply keys_mid in ND. exact ND.
  - right. split; [exact E|]. intros I. apply in_map_iff in I. destruct I as ((k', v) & Q & I). cbn [fst] in Q. subst k'.
    assert (X : exists a, In a as_ /\ ky h a = Some k).
    { clear - Dt I. induction Dt as [|a x as_ l (A & _) D IH]; [destruct I|]. destruct I as [->|I].
      - exists a. split; [left; reflexivity|exact A].
      - destruct (IH I) as (b & J & Q). exists b. split; [right; exact J|exact Q]. }
    destruct X as (a & J & Q). apply (N a); [|exact Q]. apply (Permutation_in _ (Permutation_sym P) J).
Qed.

Lemma rep_setv hd fl h l1 k v v' l2 as1 a as2 fr :
  rep hd fl h (l1 ++ (k, v) :: l2) (as1 ++ a :: as2) fr [] -> length as1 = length l1 ->
  rep hd fl (MkHeap K V (live h) (nx h) (pv h) (ky h) (fup (vl h) a (Some v'))) (l1 ++ (k, v') :: l2) (as1 ++ a :: as2) fr [].
Proof.
  intros [(L & D & H0 & Z) S C B Dt] LN. constructor.
  - split; [exact L|]. auto.
  - destruct (hd =? 0); [exact S|apply (seg_frame h); auto].
  - apply (chain_frame h); auto.
  - exact B.
  - rewrite app_nil_r in D. rewrite <- app_assoc in D. cbn [app] in D. apply NoDup_remove_2 in D. rewrite !in_app_iff in D.
    destruct (data_app _ _ _ _ _ Dt LN) as (D1 & D2). inversion D2 as [|? ? ? ? (Ka & Va) D3]; subst. cbn [fst snd] in *. apply Forall2_app.
    + apply (data_frame h); [|exact D1]. intros z I. cbn [ky vl]. split; [reflexivity|]. apply fup_other. intros ->. tauto.
    + constructor; [cbn [ky vl fst snd]; rewrite fup_same; auto|].
      apply (data_frame h); [|exact D3]. intros z I. cbn [ky vl]. split; [reflexivity|]. apply fup_other. intros ->. tauto.
Qed.

Lemma unlink_irrel a h h' k v : unlink K V a h = Some (tt, h') ->
  unlink K V a (MkHeap K V (live h) (nx h) (pv h) k v) = Some (tt, MkHeap K V (live h') (nx h') (pv h') k v).
Proof.
  destruct h as [lv n p kk vv]. unfold unlink, bind, get_p, get_n, set_n, set_p, isl. intros E. cbn -[existsb fup] in *.
  destruct (existsb (Nat.eqb a) lv) eqn:E1; [|discriminate E]. do 3 (cbn -[existsb fup] in E |- *; rewrite ?E1 in E; rewrite ?E1).
  destruct (existsb (Nat.eqb (p a)) lv) eqn:E2; [|discriminate E]. do 3 (cbn -[existsb fup] in E |- *; rewrite ?E1 in E; rewrite ?E1).
  destruct (existsb (Nat.eqb (fup n (p a) (n a) a)) lv) eqn:E3; [|discriminate E]. injection E as <-. reflexivity.
Qed.

(** ** the operations *)
Lemma insert_new_ok i h l k v : Rep i h l -> ~ In k (map fst l) ->
  exists i' h', insert_new K V malloc liberal i k v h = Some (i', h') /\ Rep i' h' (l ++ [(k, v)]).
Proof.
  intros (as_ & fr & R & P & ND) N. unfold insert_new.
  destruct (sentinel_ok _ _ _ _ _ R) as (i1 & h1 & E1 & M1 & Z1 & R1). rewrite (bs _ _ _ _ _ E1).
  destruct (alloc_ok _ _ _ _ _ k v R1) as (i2 & a & h2 & fr2 & E2 & M2 & H2 & Ka & Va & R2). rewrite (bs _ _ _ _ _ E2). cbn [fst snd].
  destruct (link_ok _ _ _ _ _ _ _ k v R2) as (h3 & E3 & R3 & _); [congruence|exact Ka|exact Va|].
  rewrite (bs _ _ _ _ _ E3). eexists _, h3. split; [reflexivity|]. exists (as_ ++ [a]), fr2. cbn [im ih fl]. split; [exact R3|]. split.
  - rewrite M2, M1. rewrite <- Permutation_cons_append. constructor. exact P.
  - rewrite map_app. cbn [map fst]. apply (Permutation_NoDup (l := k :: map fst l)); [apply Permutation_cons_append|]. constructor; assumption.
Qed.

Lemma update_at_ok i h l1 k v v' l2 as1 a as2 fr :
  rep (ih i) (fl i) h (l1 ++ (k, v) :: l2) (as1 ++ a :: as2) fr [] -> length as1 = length l1 -> Permutation (im i) (as1 ++ a :: as2) ->
  NoDup (map fst (l1 ++ (k, v) :: l2)) -> In a (live h) -> vl h a = Some v -> ky h a = Some k ->
  exists h', update_at K V i a v' h = Some (v, h') /\ Rep i h' ((l1 ++ l2) ++ [(k, v')]).
Proof.
  intros R LN P ND La Va Ka. unfold update_at. rewrite (bs _ _ _ _ _ (get_v_ok a h v La Va)), (bs _ _ _ _ _ (set_v_ok a _ h La)).
  pose proof (rep_setv _ _ _ _ _ _ v' _ _ _ _ _ R LN) as R1. set (h1 := MkHeap K V _ _ _ _ _) in *.
  assert (H0 : ih i <> 0).
  { destruct R as [_ S _ _ _]. destruct (ih i =? 0) eqn:E; [destruct as1; discriminate S|apply Nat.eqb_neq; exact E]. }
  destruct (unlink_ok _ _ _ _ _ _ _ _ _ _ R1 LN) as (h2 & E2 & R2 & K2 & V2 & L2). rewrite (bs _ _ _ _ _ E2).
  destruct (link_ok _ _ _ _ _ _ _ k v' R2 H0) as (h3 & E3 & R3 & _).
  { rewrite K2. exact Ka. }
  { rewrite V2. cbn [h1 vl]. apply fup_same. }
  rewrite (bs _ _ _ _ _ E3). exists h3. split; [reflexivity|]. exists ((as1 ++ as2) ++ [a]), fr. split; [exact R3|]. split.
  - rewrite P, <- Permutation_middle. apply Permutation_cons_append.
  - apply keys_mid in ND. destruct ND as (N1 & N2 & ND). rewrite map_app. cbn [map fst].
    apply (Permutation_NoDup (l := k :: map fst (l1 ++ l2))); [apply Permutation_cons_append|]. constructor; [|exact ND].
    rewrite map_app, in_app_iff. tauto.
Qed.

Lemma perm_remove (m as1 as2 : list nat) a : Permutation m (as1 ++ a :: as2) -> NoDup (as1 ++ a :: as2) -> Permutation (remove Nat.eq_dec a m) (as1 ++ as2).
Proof.
  intros P D. pose proof (NoDup_remove_2 _ _ _ D) as Na. pose proof (NoDup_remove_1 _ _ _ D) as D1.
  apply NoDup_Permutation.
  - assert (Dm : NoDup m) by (apply (Permutation_NoDup (Permutation_sym P) D)). clear - Dm. induction Dm as [|x m N Dm IH]; cbn [remove]; [constructor|].
    destruct (Nat.eq_dec a x); [exact IH|]. constructor; [|exact IH]. intros I. apply in_remove in I. tauto.
  - exact D1.
  - intros z. split.
    + intros I. apply in_remove in I. destruct I as (I & N). apply (Permutation_in _ P) in I. rewrite in_app_iff in *. cbn [In] in I.
      destruct I as [I|[I|I]]; [tauto|congruence|tauto].
    + intros I. apply in_in_remove; [intros ->; contradiction|]. apply (Permutation_in _ (Permutation_sym P)). rewrite in_app_iff in *. cbn [In]. tauto.
Qed.

Lemma remove_ok i h l k : Rep i h l ->
  exists i' h', remove_key K V keq liberal i k h = Some ((i', sget K V keq k l), h') /\ Rep i' h' (sdel K V keq k l).
Proof.
  intros (as_ & fr & R & P & ND). unfold remove_key.
  destruct (find_ok _ _ _ _ _ k R P ND) as [(a & as1 & as2 & l1 & v & l2 & E & -> & -> & LN & La & Ka & Va & N1 & N2 & ND')|(E & N)]; rewrite (bs _ _ _ _ _ E).
  - rewrite (bs _ _ _ _ _ (get_k_ok a h k La Ka)), (bs _ _ _ _ _ (set_k_ok a None h La)).
    set (h1 := MkHeap K V _ _ _ _ _). assert (La1 : In a (live h1)) by exact La.
    rewrite (bs _ _ _ _ _ (get_v_ok a h1 v La1 Va)), (bs _ _ _ _ _ (set_v_ok a None h1 La1)). cbn [h1 live nx pv ky vl].
    destruct (unlink_ok _ _ _ _ _ _ _ _ _ _ R LN) as (h2 & E2 & R2 & K2 & V2 & L2).
    rewrite (bs _ _ _ _ _ (unlink_irrel a h h2 _ _ E2)). set (h3 := MkHeap K V _ _ _ _ _).
    set (i1 := MkIdx (remove Nat.eq_dec a (im i)) (ih i) (fl i)).
    assert (DA : NoDup (as1 ++ a :: as2)).
    { destruct R as [(_ & D & _) _ _ _ _]. apply NoDup_app_remove_r in D. exact D. }
    assert (R3 : rep (ih i1) (fl i1) h3 (l1 ++ l2) (as1 ++ as2) fr [a]).
    { destruct R2 as [A S C B Dt]. constructor.
      - exact A.
      - cbn [i1 ih]. destruct (ih i =? 0); [exact S|apply (seg_frame h2); auto].
      - apply (chain_frame h2); auto.
      - exact B.
      - apply (data_frame h2); [|exact Dt]. apply NoDup_remove_2 in DA. intros z I. cbn [h3 ky vl]. rewrite K2, V2.
        rewrite !fup_other; [auto| |]; intros ->; contradiction. }
    destruct (free_ok _ _ _ _ _ _ R3) as (i4 & h4 & fr4 & E4 & M4 & H4 & R4). rewrite (bs _ _ _ _ _ E4).
    exists i4, h4. rewrite sget_mid, sdel_mid by assumption. split; [reflexivity|]. exists (as1 ++ as2), fr4. split; [exact R4|]. split; [|exact ND'].
    rewrite M4. cbn [i1 im]. apply perm_remove; assumption.
  - exists i, h. rewrite sget_none, sdel_none by assumption. split; [reflexivity|]. exists as_, fr. auto.
Qed.

Lemma clear_ok i h l : Rep i h l -> exists i' h', clear K V i h = Some (i', h') /\ Rep i' h' [].
Proof.
  intros (as_ & fr & R & P & ND). unfold clear. destruct (ih i =? 0) eqn:E0.
  - eexists _, h. split; [reflexivity|]. destruct R as [A S C B Dt]. rewrite E0 in S. subst as_. inversion Dt; subst l.
    exists [], fr. cbn [im ih fl]. split; [|split; constructor]. constructor; auto. rewrite E0. reflexivity.
  - apply Nat.eqb_neq in E0. destruct (drop_nodes_ok _ _ _ _ _ _ R E0) as (lv & E & Q). rewrite (bs _ _ _ _ _ E). set (h1 := MkHeap K V _ _ _ _ _).
    assert (Lh : In (ih i) (live h1)) by (apply Q; left; reflexivity).
    rewrite (bs _ _ _ _ _ (set_p_ok _ _ h1 Lh)). set (h2 := MkHeap K V (live h1) _ _ _ _). assert (Lh2 : In (ih i) (live h2)) by exact Lh.
    rewrite (bs _ _ _ _ _ (set_n_ok _ _ h2 Lh2)). set (h3 := MkHeap K V (live h2) _ _ _ _).
    eexists _, h3. split; [reflexivity|]. destruct R as [(L & D & H0 & Z) S C B Dt]. rewrite app_nil_r in *. specialize (H0 E0). rewrite in_app_iff in H0, Z.
    exists [], fr. cbn [im ih fl]. split; [|split; constructor]. constructor.
    + cbn [app]. unfold at_heap. cbn [app]. split; [intros z|split; [|split]]; rewrite ?app_nil_r.
      * cbn [h3 h2 h1 live]. rewrite Q. split; [intros [->|I]; [left; auto|tauto]|intros [(-> & _)|I]; auto].
      * apply NoDup_app_remove_l in D. exact D.
      * tauto.
      * tauto.
    + apply Nat.eqb_neq in E0. rewrite E0. cbn [seg h3 h2 h1 nx pv]. rewrite !fup_same. auto.
    + apply (chain_frame h); [|exact C]. intros z I. cbn [h3 h2 h1 nx]. apply fup_other. intros ->. tauto.
    + exact B.
    + constructor.
Qed.

(** ** iteration *)
Lemma hdd_app R (a : nat) B y : hdd ((R ++ [a]) ++ B) y = hdd (R ++ a :: B) y.
Proof. rewrite <- app_assoc. reflexivity. Qed.

Lemma iter_run_ok hd fl h l as_ fr : rep hd fl h l as_ fr [] -> hd <> 0 ->
  forall ds A R B LA LR LB, as_ = A ++ R ++ B -> l = LA ++ LR ++ LB -> length A = length LA -> length R = length LR ->
    iter_run K V (MkIter (hdd (R ++ B) hd) (hdd B hd) (length R)) ds h = Some (sfront K V LR ds, h).
Proof.
  intros [(L & D & H0 & Z) S C B0 Dt] E0. rewrite app_nil_r in *. specialize (H0 E0). rewrite in_app_iff in H0.
  pose proof E0 as E0'. apply Nat.eqb_neq in E0'. rewrite E0' in S. apply NoDup_app_remove_r in D.
  assert (Lv : forall a, In a as_ -> In a (live h)) by (intros a I; apply L; right; rewrite in_app_iff; tauto).
  assert (Lh : In hd (live h)) by (apply L; left; auto).
  induction ds as [|d ds IH]; intros A R B LA LR LB EA EL LNA LNR; [reflexivity|]. cbn [iter_run].
  assert (Dn : forall a R', R = a :: R' \/ R = R' ++ [a] -> a <> hdd B hd /\ In a as_).
  { intros a R' Q. assert (Ia : In a R) by (destruct Q as [->| ->]; [left; reflexivity|rewrite in_app_iff; cbn; tauto]).
    assert (Is : In a as_) by (rewrite EA, !in_app_iff; tauto). split; [|exact Is]. destruct B as [|b B]; cbn [hdd].
    - intros ->. tauto.
    - intros ->. rewrite EA in D. apply NoDup_app_remove_l in D. apply (nodup_disj _ _ b D Ia). left. reflexivity. }
  assert (Dmid : data h R LR).
  { rewrite EA, EL in Dt. destruct (data_app _ _ _ _ _ Dt LNA) as (_ & D2). destruct (data_app _ _ _ _ _ D2 LNR) as (D3 & _). exact D3. }
  destruct d.
  - unfold iter_next. cbn [it_h it_t it_r sfront]. destruct R as [|a R].
    + destruct LR; [|discriminate LNR]. cbn [app]. rewrite Nat.eqb_refl. unfold bind at 1, ret at 1. cbn [fst snd it_r].
      specialize (IH A [] B LA [] LB EA EL LNA eq_refl). cbn [app] in IH. rewrite (bs _ _ _ _ _ IH). reflexivity.
    + destruct LR as [|(k, v) LR]; [discriminate LNR|]. destruct (Dn a R (or_introl eq_refl)) as (Na & Ia).
      cbn [app hdd length]. pose proof Na as Na'. apply Nat.eqb_neq in Na'. rewrite Na'.
      inversion Dmid as [|? ? ? ? (Ka & Va) D3]; subst. cbn [fst snd] in *.
      unfold bind at 1. rewrite (bs _ _ _ _ _ (get_k_ok a h k (Lv a Ia) Ka)), (bs _ _ _ _ _ (get_v_ok a h v (Lv a Ia) Va)), (bs _ _ _ _ _ (get_p_ok a h (Lv a Ia))).
      unfold ret at 1. cbn [fst snd it_r].
      destruct (seg_mid h hd (A ++ [a]) (R ++ B) hd) as (PA & _). { rewrite <- app_assoc. exact S. }
      rewrite lst_snoc in PA. rewrite PA.
      rewrite (bs _ _ _ _ _ (IH (A ++ [a]) R B (LA ++ [(k, v)]) LR LB ltac:(rewrite <- app_assoc; reflexivity) ltac:(rewrite <- app_assoc; reflexivity)
        ltac:(rewrite !app_length, LNA; reflexivity) ltac:(cbn in LNR; congruence))).
      unfold ret. do 3 f_equal. cbn in LNR. congruence.
  - unfold iter_next_back. cbn [it_h it_t it_r sfront].
    destruct R as [|a R _] using rev_ind.
    + destruct LR; [|discriminate LNR]. cbn [app rev]. rewrite Nat.eqb_refl. unfold bind at 1, ret at 1. cbn [fst snd it_r].
      specialize (IH A [] B LA [] LB EA EL LNA eq_refl). cbn [app] in IH. rewrite (bs _ _ _ _ _ IH). reflexivity.
    + rewrite app_length in LNR. cbn [length] in LNR.
      destruct LR as [|(k, v) LR _] using rev_ind; [cbn in LNR; lia|]. rewrite app_length in LNR. cbn [length] in LNR.
      assert (LN' : length R = length LR) by lia.
      destruct (Dn a R (or_intror eq_refl)) as (Na & Ia).
      assert (Nh : hdd ((R ++ [a]) ++ B) hd <> hdd B hd).
      { destruct R as [|r R]; cbn [app hdd]; [exact Na|]. exact (proj1 (Dn r (R ++ [a]) (or_introl eq_refl))). }
      apply Nat.eqb_neq in Nh. rewrite Nh. rewrite app_length, Nat.add_1_r.
      destruct (data_app _ _ _ _ _ Dmid LN') as (_ & D3). inversion D3 as [|? ? ? ? (Ka & Va) _]; subst. cbn [fst snd] in *.
      destruct (seg_mid h hd (A ++ R ++ [a]) B hd) as (_ & NB). { rewrite <- !app_assoc in *. exact S. }
      rewrite app_assoc, lst_snoc in NB.
      assert (Lt : In (hdd B hd) (live h)).
      { destruct B as [|b B]; cbn [hdd]; [exact Lh|]. apply Lv. rewrite !in_app_iff. cbn [In]. tauto. }
      unfold bind at 1. rewrite (bs _ _ _ _ _ (get_n_ok _ h Lt)). rewrite NB.
      rewrite (bs _ _ _ _ _ (get_k_ok a h k (Lv a Ia) Ka)), (bs _ _ _ _ _ (get_v_ok a h v (Lv a Ia) Va)).
      unfold ret at 1. cbn [fst snd it_r]. rewrite hdd_app.
      rewrite (bs _ _ _ _ _ (IH A R (a :: B) LA LR ((k, v) :: LB) ltac:(rewrite <- !app_assoc; reflexivity) ltac:(rewrite <- !app_assoc; reflexivity) LNA LN')).
      rewrite rev_app_distr. cbn [rev app]. rewrite rev_involutive, rev_length. unfold ret. do 3 f_equal. congruence.
Qed.

Lemma sfront_nil ds : forall h, iter_run K V (MkIter 0 0 0) ds h = Some (sfront K V [] ds, h).
Proof.
  induction ds as [|d ds IH]; intros h; [reflexivity|]. destruct d; cbn [iter_run iter_next iter_next_back sfront rev].
  - unfold iter_next. cbn [it_h it_t Nat.eqb]. unfold bind at 1, ret at 1. cbn [fst snd it_r]. rewrite (bs _ _ _ _ _ (IH h)). reflexivity.
  - unfold iter_next_back. cbn [it_h it_t Nat.eqb]. unfold bind at 1, ret at 1. cbn [fst snd it_r]. rewrite (bs _ _ _ _ _ (IH h)). reflexivity.
Qed.

Lemma iterate_ok i h l ds : Rep i h l -> iterate K V i ds h = Some (sfront K V l ds, h).
Proof.
  intros (as_ & fr & R & P & ND). unfold iterate, iter_new. pose proof (data_len _ _ _ (rp_data _ _ _ _ _ _ _ R)) as DL.
  pose proof (Permutation_length P) as PL. destruct (ih i =? 0) eqn:E0.
  - destruct R as [A S C B Dt]. rewrite E0 in S. subst as_. destruct l; [|discriminate DL]. apply Nat.eqb_eq in E0. rewrite E0, PL. cbn [length].
    rewrite (bs _ _ _ _ _ eq_refl). apply sfront_nil.
  - apply Nat.eqb_neq in E0. pose proof R as R'. destruct R as [(L & _) S C B Dt].
    assert (Lh : In (ih i) (live h)) by (apply L; left; auto). unfold bind at 1. rewrite (bs _ _ _ _ _ (get_p_ok _ h Lh)).
    apply Nat.eqb_neq in E0. rewrite E0 in S. destruct (seg_mid h (ih i) [] as_ (ih i) S) as (PH & _). cbn [lst] in PH. rewrite PH, PL.
    unfold ret at 1. apply Nat.eqb_neq in E0.
    pose proof (iter_run_ok _ _ _ _ _ _ R' E0 ds [] as_ [] [] l []) as X. rewrite !app_nil_r in X. cbn [hdd] in X. apply X; auto.
Qed.

(** ** any operation *)
Lemma exec_ok i h l o : Rep i h l ->
  exists i' h', exec K V keq malloc liberal i o h = Some ((i', snd (sstep K V keq l o)), h') /\ Rep i' h' (fst (sstep K V keq l o)).
Proof.
  intros R0. pose proof R0 as (as_ & fr & R & P & ND). destruct o as [k v|k v|k v|k v|k| | |k| |ds]; cbn [exec sstep].
  - unfold insert. destruct (find_ok _ _ _ _ _ k R P ND) as [(a & as1 & as2 & l1 & v0 & l2 & E & EA & EL & LN & La & Ka & Va & N1 & N2 & ND')|(E & N)].
    + rewrite EL, sget_mid by assumption. exists i, h. unfold bind at 1. rewrite (bs _ _ _ _ _ E). split; [reflexivity|]. cbn [fst]. rewrite <- EL. exact R0.
    + rewrite sget_none by assumption. destruct (insert_new_ok i h l k v R0 N) as (i' & h' & E' & R').
      exists i', h'. unfold bind at 1. rewrite (bs _ _ _ _ _ E), (bs _ _ _ _ _ E'). split; [reflexivity|exact R'].
  - unfold put. destruct (find_ok _ _ _ _ _ k R P ND) as [(a & as1 & as2 & l1 & v0 & l2 & E & -> & -> & LN & La & Ka & Va & N1 & N2 & ND')|(E & N)].
    + rewrite sget_mid by assumption. eexists i, _. unfold bind at 1. rewrite (bs _ _ _ _ _ E), (bs _ _ _ _ _ (set_v_ok a _ h La)). split; [reflexivity|]. cbn [fst].
      rewrite sput_mid by assumption. exists (as1 ++ a :: as2), fr. split; [exact (rep_setv _ _ _ _ _ _ v _ _ _ _ _ R LN)|]. split; [exact P|].
      rewrite map_app in *. exact ND.
    + rewrite sget_none by assumption. exists i, h. unfold bind at 1. rewrite (bs _ _ _ _ _ E). split; [reflexivity|exact R0].
  - unfold update. destruct (find_ok _ _ _ _ _ k R P ND) as [(a & as1 & as2 & l1 & v0 & l2 & E & -> & -> & LN & La & Ka & Va & N1 & N2 & ND')|(E & N)].
    + rewrite sget_mid, sdel_mid by assumption. destruct (update_at_ok i h l1 k v0 v l2 as1 a as2 fr R LN P ND La Va Ka) as (h' & E' & R').
      exists i, h'. unfold bind at 1. rewrite (bs _ _ _ _ _ E), (bs _ _ _ _ _ E'). split; [reflexivity|exact R'].
    + rewrite sget_none by assumption. exists i, h. unfold bind at 1. rewrite (bs _ _ _ _ _ E). split; [reflexivity|exact R0].
  - unfold upsert. destruct (find_ok _ _ _ _ _ k R P ND) as [(a & as1 & as2 & l1 & v0 & l2 & E & -> & -> & LN & La & Ka & Va & N1 & N2 & ND')|(E & N)].
    + rewrite sget_mid, sdel_mid by assumption. destruct (update_at_ok i h l1 k v0 v l2 as1 a as2 fr R LN P ND La Va Ka) as (h' & E' & R').
      exists i, h'. unfold bind at 1. rewrite (bs _ _ _ _ _ E), (bs _ _ _ _ _ E'). split; [reflexivity|exact R'].
    + rewrite sget_none, sdel_none by assumption. destruct (insert_new_ok i h l k v R0 N) as (i' & h' & E' & R').
      exists i', h'. unfold bind at 1. rewrite (bs _ _ _ _ _ E), (bs _ _ _ _ _ E'). split; [reflexivity|exact R'].
  - destruct (remove_ok i h l k R0) as (i' & h' & E & R'). exists i', h'. rewrite (bs _ _ _ _ _ E). split; [reflexivity|exact R'].
  - destruct (clear_ok i h l R0) as (i' & h' & E & R'). exists i', h'. rewrite (bs _ _ _ _ _ E). split; [reflexivity|exact R'].
  - destruct (cleanup_ok _ _ _ _ _ R) as (i' & h' & E & M & H & R'). exists i', h'. rewrite (bs _ _ _ _ _ E). split; [reflexivity|].
    exists as_, []. split; [exact R'|]. split; [rewrite M; exact P|exact ND].
  - unfold get. destruct (find_ok _ _ _ _ _ k R P ND) as [(a & as1 & as2 & l1 & v0 & l2 & E & EA & EL & LN & La & Ka & Va & N1 & N2 & ND')|(E & N)].
    + exists i, h. unfold bind at 1. rewrite (bs _ _ _ _ _ E), (bs _ _ _ _ _ (get_v_ok a h v0 La Va)). split; [|exact R0].
      rewrite EL, sget_mid by assumption. reflexivity.
    + exists i, h. unfold bind at 1. rewrite (bs _ _ _ _ _ E). split; [|exact R0]. rewrite sget_none by assumption. reflexivity.
  - exists i, h. split; [|exact R0]. rewrite (Permutation_length P), (data_len _ _ _ (rp_data _ _ _ _ _ _ _ R)). reflexivity.
  - exists i, h. rewrite (bs _ _ _ _ _ (iterate_ok i h l ds R0)). split; [reflexivity|exact R0].
Qed.

Lemma exec_all_ok os : forall i h l, Rep i h l ->
  exists i' h', exec_all K V keq malloc liberal i os h = Some ((i', snd (srun K V keq l os)), h') /\ Rep i' h' (fst (srun K V keq l os)).
Proof.
  induction os as [|o os IH]; intros i h l R; cbn [exec_all srun].
  - exists i, h. auto.
  - destruct (exec_ok i h l o R) as (i1 & h1 & E1 & R1). destruct (IH i1 h1 _ R1) as (i2 & h2 & E2 & R2). exists i2, h2.
    rewrite (bs _ _ _ _ _ E1). cbn [fst snd]. rewrite (bs _ _ _ _ _ E2). split; [reflexivity|exact R2].
Qed.

(** * End of life *)
Lemma drop_ok i h l : Rep i h l -> exists h', drop_idx K V liberal i h = Some (tt, h') /\ live h' = [].
Proof.
  intros (as_ & fr & R & P & ND). unfold drop_idx.
  assert (X : exists lv, (if ih i =? 0 then ret K V tt else bind K V (drop_nodes K V (ih i)) (fun _ => dealloc K V (ih i))) h =
                  Some (tt, MkHeap K V lv (nx h) (pv h) (ky h) (vl h)) /\ (forall a, In a lv <-> In a fr)).
  { destruct (ih i =? 0) eqn:E0.
    - destruct R as [(L & _) S C B Dt]. rewrite E0 in S. subst as_. apply Nat.eqb_eq in E0. exists (live h). split; [destruct h; reflexivity|].
      intros a. rewrite L. rewrite app_nil_r. cbn [app]. split; [intros [(_ & Q)|I]; [contradiction|exact I]|auto].
    - apply Nat.eqb_neq in E0. destruct (drop_nodes_ok _ _ _ _ _ _ R E0) as (lv & E & Q). rewrite (bs _ _ _ _ _ E). set (h1 := MkHeap K V _ _ _ _ _).
      assert (Lh : In (ih i) (live h1)) by (apply Q; left; reflexivity). exists (remove Nat.eq_dec (ih i) lv). split; [exact (dealloc_ok _ h1 Lh)|].
      intros a. destruct R as [(L & D & H0 & Z) _ _ _ _]. rewrite app_nil_r in *. specialize (H0 E0). rewrite in_app_iff in H0. split.
      + intros I. apply in_remove in I. destruct I as (I & N). apply Q in I. destruct I as [I|I]; [contradiction|exact I].
      + intros I. apply in_in_remove; [intros ->; tauto|]. apply Q. right. exact I. }
  destruct X as (lv & E & Q). rewrite (bs _ _ _ _ _ E). set (h1 := MkHeap K V _ _ _ _ _).
  destruct R as [(L & D & H0 & Z) S C B Dt]. rewrite app_nil_r in *. unfold cleanup. destruct liberal eqn:EL.
  - apply NoDup_app_remove_l in D. destruct (cleanup_loop_ok fr (length (live h1)) (fl i) h1) as (lv2 & E2 & Q2).
    + apply NoDup_incl_length; [exact D|]. intros z I. apply Q. exact I.
    + apply (chain_frame h); auto.
    + exact D.
    + intros I. apply Z. rewrite in_app_iff. tauto.
    + intros a I. apply Q. exact I.
    + unfold bind at 1. rewrite (bs _ _ _ _ _ E2). eexists. split; [reflexivity|]. cbn [live].
      destruct lv2 as [|z lv2]; [reflexivity|]. exfalso. destruct (proj1 (Q2 z) (or_introl eq_refl)) as (I & N). apply Q in I. contradiction.
  - rewrite (B eq_refl) in *. eexists. split; [reflexivity|]. cbn [h1 live]. destruct lv as [|z lv]; [reflexivity|]. destruct (proj1 (Q z) (or_introl eq_refl)).
Qed.

Lemma unordered_ok i h l : Rep i h l -> exists l', unordered K V i h = Some (l', h) /\ Permutation l' l.
Proof.
  intros (as_ & fr & R & P & ND). destruct R as [(L & _) S C B Dt].
  assert (Lv : forall a, In a (im i) -> In a (live h)).
  { intros a I. apply L. right. rewrite in_app_iff. left. exact (Permutation_in _ P I). }
  destruct (Permutation_Forall2 (Permutation_sym P) Dt) as (l' & P' & D'). exists l'. split; [|apply Permutation_sym; exact P'].
  clear - D' Lv. unfold unordered. induction D' as [|a (k, v) m l (A & B) D IH]; [reflexivity|]. cbn [read_all fst snd] in *.
  pose proof (Lv a (or_introl eq_refl)) as La. rewrite (bs _ _ _ _ _ (get_k_ok a h k La A)), (bs _ _ _ _ _ (get_v_ok a h v La B)).
  rewrite (bs _ _ _ _ _ (IH ltac:(intros b I; apply Lv; right; exact I))). reflexivity.
Qed.

(** the iterator that takes the map apart: the first step from the front reads memory just given back *)
Lemma own_bad i h l : Rep i h l -> l <> [] ->
  exists t h', own_new K V liberal i h = Some (t, h') /\ own_next K V t h' = None.
Proof.
  intros (as_ & fr & R & P & ND) NE. unfold own_new.
  destruct (cleanup_ok _ _ _ _ _ R) as (i' & h' & E & M & H & R'). rewrite (bs _ _ _ _ _ E).
  destruct R' as [(L & D & H0 & Z) S C B Dt]. cbn [app] in *. rewrite app_nil_r in *.
  inversion Dt as [Q1 Q2|a x as' l' (Ka & Va) Dt' Q1 Q2]; [congruence|]. subst as_ l.
  destruct (ih i' =? 0) eqn:E0; [discriminate S|]. apply Nat.eqb_neq in E0.
  assert (Lh : In (ih i') (live h')) by (apply L; left; auto). rewrite (bs _ _ _ _ _ (get_p_ok _ h' Lh)).
  eexists _, h'. split; [reflexivity|]. cbn [seg] in S. destruct S as (S1 & _). rewrite S1. unfold own_next. cbn [it_h it_t it_r].
  assert (ah : a <> ih i') by (intros Q; apply (H0 E0); left; exact Q). apply Nat.eqb_neq in ah. rewrite ah.
  rewrite M, (Permutation_length P). cbn [length].
  assert (La : In a (live h')) by (apply L; right; left; reflexivity).
  rewrite (bs _ _ _ _ _ (get_k_ok a h' _ La Ka)), (bs _ _ _ _ _ (get_v_ok a h' _ La Va)), (bs _ _ _ _ _ (dealloc_ok a h' La)).
  unfold bind at 1, get_p, isl. cbn [live]. destruct (existsb (Nat.eqb a) (remove Nat.eq_dec a (live h'))) eqn:X; [|reflexivity].
  apply existsb_exists in X. destruct X as (z & I & Q). apply Nat.eqb_eq in Q. subst z. apply in_remove in I. tauto.
Qed.

(** comparison *)
Lemma get_ok i h l k : Rep i h l -> get K V keq i k h = Some (sget K V keq k l, h).
Proof.
  intros (as_ & fr & R & P & ND). unfold get.
  destruct (find_ok _ _ _ _ _ k R P ND) as [(a & as1 & as2 & l1 & v0 & l2 & E & EA & EL & LN & La & Ka & Va & N1 & N2 & ND')|(E & N)]; rewrite (bs _ _ _ _ _ E).
  - rewrite (bs _ _ _ _ _ (get_v_ok a h v0 La Va)). rewrite EL, sget_mid by assumption. reflexivity.
  - rewrite sget_none by assumption. reflexivity.
Qed.
End Proofs.
