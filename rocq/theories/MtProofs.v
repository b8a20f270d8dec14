(** The row index, one operation at a time: proofs. *)
From Coq Require Import List Arith NArith Bool Lia Permutation.
From Verif Require Import MtModel MtSpec.
Import ListNotations.
Local Open Scope nat_scope.

Section Lists.
Context {A B : Type}.
Lemma nth_set (i : nat) (x : B) : forall l j, i < length l -> nth_error (set_nth i x l) j = if j =? i then Some x else nth_error l j.
Proof.
  induction i as [|i IH]; intros [|y l] j H; cbn in H; try lia; destruct j as [|j]; cbn; try reflexivity. apply IH. lia.
Qed.
Lemma set_len (i : nat) (x : B) : forall l, length (set_nth i x l) = length l.
Proof. induction i as [|i IH]; intros [|y l]; cbn; try reflexivity. rewrite IH. reflexivity. Qed.
Definition others (i : nat) (l : list B) : list B := firstn i l ++ skipn (S i) l.
Lemma flat_others (f : B -> list A) : forall i l c, nth_error l i = Some c -> Permutation (flat_map f l) (f c ++ flat_map f (others i l)).
Proof.
  unfold others. induction i as [|i IH]; intros [|y l] c H; try discriminate H; cbn in H.
  - injection H as ->. apply Permutation_refl.
  - cbn [flat_map firstn app]. rewrite (IH l c H). change (skipn (S (S i)) (y :: l)) with (skipn (S i) l). cbn [flat_map app].
    rewrite !app_assoc. apply Permutation_app_tail. apply Permutation_app_comm.
Qed.
Lemma set_others (x : B) : forall i l, i < length l -> others i (set_nth i x l) = others i l.
Proof.
  unfold others. induction i as [|i IH]; intros [|y l] H; cbn in H; try lia; [reflexivity|]. cbn [set_nth firstn app].
  change (skipn (S (S i)) (y :: ?l')) with (skipn (S i) l'). f_equal. apply IH. lia.
Qed.
Lemma in_others (x : B) : forall i l, In x (others i l) -> exists j, j <> i /\ nth_error l j = Some x.
Proof.
  unfold others. induction i as [|i IH]; intros [|y l] H.
  - destruct H.
  - cbn in H. apply In_nth_error in H. destruct H as (j & H). exists (S j). split; [discriminate|exact H].
  - cbn in H. destruct H.
  - cbn [firstn app] in H. change (skipn (S (S i)) (y :: l)) with (skipn (S i) l) in H. destruct H as [->|H].
    + exists 0. split; [discriminate|reflexivity].
    + destruct (IH l H) as (j & N & E). exists (S j). split; [congruence|exact E].
Qed.
End Lists.

Section Proofs.
Variables K V : Type.
Variable keq : K -> K -> bool.
Hypothesis keq_ok : forall a b, keq a b = true <-> a = b.
Notation tree := (tree K V).
Notation elem := (K * V)%type.
Notation lookup := (lookup K V keq).
Notation sfind := (sfind K V keq).
Notation sdel := (sdel K V keq).
Notation sput := (sput K V keq).

Lemma keq_refl a : keq a a = true.
Proof. apply keq_ok. reflexivity. Qed.
Lemma keq_no a b : keq a b = false <-> a <> b.
Proof. rewrite <- keq_ok. destruct (keq a b); split; congruence. Qed.

(** * Tables *)
Lemma sfind_none k (l : list elem) : sfind k l = None <-> ~ In k (map fst l).
Proof.
  unfold sfind. induction l as [|e l IH]; cbn; [tauto|]. destruct (keq k (fst e)) eqn:E.
  - apply keq_ok in E. split; [discriminate|intros N; exfalso; apply N; auto].
  - rewrite IH. apply keq_no in E. split; intros N; [intros [Q|Q]; [congruence|tauto]|tauto].
Qed.
Lemma sfind_some k (l : list elem) e : sfind k l = Some e -> In e l /\ fst e = k.
Proof. unfold sfind. intros H. apply find_some in H. destruct H as (I & E). apply keq_ok in E. auto. Qed.
Lemma sfind_in (l : list elem) e : NoDup (map fst l) -> In e l -> sfind (fst e) l = Some e.
Proof.
  unfold sfind. induction l as [|x l IH]; intros D I; [destruct I|]. cbn in D. inversion D as [|? ? N D']; subst. cbn. destruct I as [->|I].
  - rewrite keq_refl. reflexivity.
  - destruct (keq (fst e) (fst x)) eqn:E; [|apply IH; assumption]. apply keq_ok in E. exfalso. apply N. rewrite <- E. apply in_map. exact I.
Qed.
Lemma sfind_perm k (l l' : list elem) : NoDup (map fst l) -> Permutation l l' -> sfind k l = sfind k l'.
Proof.
  intros D P. assert (D' : NoDup (map fst l')) by (apply (Permutation_NoDup (Permutation_map fst P)); exact D). destruct (sfind k l) as [e|] eqn:E.
  - apply sfind_some in E. destruct E as (I & <-). symmetry. apply sfind_in; [exact D'|]. apply (Permutation_in _ P). exact I.
  - symmetry. apply sfind_none. apply sfind_none in E. intros I. apply E. apply (Permutation_in _ (Permutation_map fst (Permutation_sym P))). exact I.
Qed.
Lemma sdel_perm k (l l' : list elem) : Permutation l l' -> Permutation (sdel k l) (sdel k l').
Proof.
  intros P. unfold sdel. induction P as [|x l l' P IH|x y l|l1 l2 l3 P1 IH1 P2 IH2]; cbn.
  - constructor.
  - destruct (negb (keq k (fst x))); [constructor; exact IH|exact IH].
  - destruct (negb (keq k (fst x))), (negb (keq k (fst y))); try apply Permutation_refl. constructor.
  - eapply Permutation_trans; eassumption.
Qed.
Lemma sdel_none k (l : list elem) : ~ In k (map fst l) -> sdel k l = l.
Proof.
  unfold sdel. induction l as [|e l IH]; intros N; [reflexivity|]. cbn. rewrite (proj2 (keq_no k (fst e))) by (intros ->; apply N; left; reflexivity). cbn.
  f_equal. apply IH. intros I. apply N. right. exact I.
Qed.
Lemma sdel_app k (l l' : list elem) : sdel k (l ++ l') = sdel k l ++ sdel k l'.
Proof. unfold sdel. induction l as [|e l IH]; [reflexivity|]. cbn. destruct (negb (keq k (fst e))); cbn; rewrite IH; reflexivity. Qed.
Lemma sdel_in k (l : list elem) e : In e (sdel k l) <-> In e l /\ fst e <> k.
Proof. unfold sdel. rewrite filter_In. rewrite negb_true_iff, keq_no. split; intros (A & B); auto. Qed.
Lemma sdel_nodup k (l : list elem) : NoDup (map fst l) -> NoDup (map fst (sdel k l)).
Proof.
  induction l as [|e l IH]; intros D; [exact D|]. cbn in D. inversion D as [|? ? N D']; subst. unfold sdel in *. cbn. destruct (negb (keq k (fst e))); [|apply IH; exact D'].
  cbn. constructor; [|apply IH; exact D']. intros I. apply N. apply in_map_iff in I. destruct I as (x & E & I). apply filter_In in I. rewrite <- E. apply in_map. tauto.
Qed.
Lemma sdel_keys k (l : list elem) : ~ In k (map fst (sdel k l)).
Proof. intros I. apply in_map_iff in I. destruct I as (e & E & I). apply sdel_in in I. tauto. Qed.
Lemma sput_nodup e (l : list elem) : NoDup (map fst l) -> NoDup (map fst (sput e l)).
Proof. intros D. unfold sput. cbn. constructor; [apply sdel_keys|apply sdel_nodup; exact D]. Qed.
Lemma sput_perm e (l l' : list elem) : Permutation l l' -> Permutation (sput e l) (sput e l').
Proof. intros P. unfold sput. constructor. apply sdel_perm. exact P. Qed.
Lemma sdel_length k (l : list elem) : NoDup (map fst l) -> length l = length (sdel k l) + (if is_some (sfind k l) then 1 else 0).
Proof.
  unfold sdel, sfind. induction l as [|e l IH]; intros D; [reflexivity|]. cbn in D. inversion D as [|? ? N D']; subst. cbn. destruct (keq k (fst e)) eqn:E; cbn.
  - fold (sdel k l). rewrite sdel_none; [lia|]. apply keq_ok in E. subst k. exact N.
  - rewrite (IH D'). lia.
Qed.

Variable hash : K -> N.
Notation patch := (patch K V keq hash).
Notation remove := (remove K V keq hash).

(** * Well-formed trees: [k] levels left, hashes on the path satisfy [P] *)
Fixpoint wf (k : nat) (level : N) (P : N -> Prop) (t : tree) : Prop :=
  match t with
  | TNull => True
  | TLeaf d => d <> [] /\ NoDup (map fst d) /\ (forall e, In e d -> P (hash (fst e))) /\ (k <> 0 -> length d = 1)
  | TBranch b =>
      match k with
      | 0 => False
      | S k => length b = branch_mx /\ forall i c, nth_error b i = Some c -> wf k (level + branch_lg) (fun h => P h /\ chunk h level = i) c
      end
  end.
Fixpoint els (k : nat) (t : tree) : list elem :=
  match t with
  | TNull => []
  | TLeaf d => d
  | TBranch b => match k with 0 => [] | S k => flat_map (els k) b end
  end.
Lemma wf_branch k level P b : wf (S k) level P (TBranch b) <->
  length b = branch_mx /\ forall i c, nth_error b i = Some c -> wf k (level + branch_lg) (fun h => P h /\ chunk h level = i) c.
Proof. reflexivity. Qed.
Lemma els_branch k b : els (S k) (TBranch b) = flat_map (els k) b.
Proof. reflexivity. Qed.

Lemma wf_weaken k : forall level (P Q : N -> Prop) t, (forall h, P h -> Q h) -> wf k level P t -> wf k level Q t.
Proof.
  induction k as [|k IH]; intros level P Q [|d|b] PQ W; try exact I.
  - destruct W as (A & B & C & D). repeat split; auto.
  - destruct W.
  - destruct W as (A & B & C & D). repeat split; auto.
  - destruct W as (L & W). split; [exact L|]. intros i c E. apply (IH _ (fun h => P h /\ chunk h level = i)); [intros h (X & Y); auto|]. apply W. exact E.
Qed.
Lemma chunk_lt h level : chunk h level < branch_mx.
Proof.
  unfold chunk, branch_mx, mask. assert (X : (N.land (N.shiftr h level) 15 < 16)%N); [|lia].
  change 15%N with (N.ones 4). rewrite N.land_ones. apply N.mod_lt. discriminate.
Qed.
Lemma els_path k : forall level P t e, wf k level P t -> In e (els k t) -> P (hash (fst e)).
Proof.
  induction k as [|k IH]; intros level P [|d|b] e W I; try destruct I.
  - destruct W as (_ & _ & C & _). apply C. exact I.
  - destruct W as (_ & _ & C & _). apply C. exact I.
  - destruct W as (L & W). rewrite els_branch in I. apply in_flat_map in I. destruct I as (c & Ic & I). apply In_nth_error in Ic. destruct Ic as (i & Ei).
    apply (IH _ _ _ _ (W i c Ei) I).
Qed.
(** an element below a branch is below the slot of its hash *)
Lemma others_out k level P b i key : wf (S k) level P (TBranch b) -> chunk (hash key) level = i -> ~ In key (map fst (flat_map (els k) (others i b))).
Proof.
  intros (L & W) E I. apply in_map_iff in I. destruct I as (e & <- & I). apply in_flat_map in I. destruct I as (c & Ic & I).
  apply in_others in Ic. destruct Ic as (j & N & Ej). destruct (els_path _ _ _ _ _ (W j c Ej) I) as (_ & Q). congruence.
Qed.
Lemma app_nodup (l1 l2 : list elem) : NoDup (map fst l1) -> NoDup (map fst l2) -> (forall e, In e l1 -> ~ In (fst e) (map fst l2)) -> NoDup (map fst (l1 ++ l2)).
Proof.
  intros D1 D2 X. induction l1 as [|e l1 IH]; [exact D2|]. cbn in *. inversion D1 as [|? ? N D1']; subst. constructor.
  - rewrite map_app. intros I. apply in_app_or in I. destruct I as [I|I]; [contradiction|]. apply (X e); auto.
  - apply IH; auto.
Qed.
Lemma els_nodup k : forall level P t, wf k level P t -> NoDup (map fst (els k t)).
Proof.
  induction k as [|k IH]; intros level P [|d|b] W; try (constructor; fail).
  - destruct W as (_ & D & _). exact D.
  - destruct W as (_ & D & _). exact D.
  - destruct W as (L & W). rewrite els_branch. clear L.
    assert (G : forall o, (forall i c, nth_error b i = Some c -> wf k (level + branch_lg) (fun h => P h /\ chunk h level = o + i) c) -> NoDup (map fst (flat_map (els k) b))).
    { clear W. induction b as [|c b IHb]; intros o W; [constructor|]. cbn [flat_map]. apply app_nodup.
      - exact (IH _ _ _ (W 0 c eq_refl)).
      - apply (IHb (S o)). intros i c' E. replace (S o + i) with (o + S i) by lia. apply W. exact E.
      - intros e I J. destruct (els_path _ _ _ _ _ (W 0 c eq_refl) I) as (_ & Q). apply in_map_iff in J. destruct J as (e' & E & J). apply in_flat_map in J. destruct J as (c' & Ic & J).
        apply In_nth_error in Ic. destruct Ic as (i & Ei). destruct (els_path _ _ _ _ _ (W (S i) c' Ei) J) as (_ & Q'). rewrite E in Q'. lia. }
    apply (G 0). exact W.
Qed.

Section Branch.
Variables (k : nat) (level : N) (P : N -> Prop) (b : list tree).
Hypothesis W : wf (S k) level P (TBranch b).
Variable key : K.
Hypothesis PK : P (hash key).
Let i := chunk (hash key) level.

Lemma slot_lt : i < length b.
Proof. destruct W as (L & _). rewrite L. apply chunk_lt. Qed.
Lemma slot_some : exists c, nth_error b i = Some c /\ wf k (level + branch_lg) (fun h => P h /\ chunk h level = i) c.
Proof.
  pose proof slot_lt as H. apply nth_error_Some in H. destruct (nth_error b i) as [c|] eqn:E; [|congruence]. exists c. split; [reflexivity|]. apply (proj2 W). exact E.
Qed.
Lemma wf_set c' : wf k (level + branch_lg) (fun h => P h /\ chunk h level = i) c' -> wf (S k) level P (TBranch (set_nth i c' b)).
Proof.
  intros W'. split; [rewrite set_len; exact (proj1 W)|]. intros j c E. rewrite nth_set in E by exact slot_lt. destruct (j =? i) eqn:Q.
  - apply Nat.eqb_eq in Q. subst j. injection E as <-. exact W'.
  - apply (proj2 W). exact E.
Qed.
Lemma set_perm c' : Permutation (flat_map (els k) (set_nth i c' b)) (els k c' ++ flat_map (els k) (others i b)).
Proof. rewrite <- (set_others c' i b slot_lt). apply flat_others. rewrite nth_set by exact slot_lt. rewrite Nat.eqb_refl. reflexivity. Qed.
Lemma sfind_branch c : nth_error b i = Some c -> sfind key (flat_map (els k) b) = sfind key (els k c).
Proof.
  intros E. rewrite (sfind_perm key (flat_map (els k) b) _ (els_nodup _ _ _ _ W) (flat_others (els k) i b c E)). unfold sfind. pose proof (others_out k level P b i key W eq_refl) as N.
  induction (els k c) as [|e l IH]; cbn; [apply sfind_none; exact N|]. destruct (keq key (fst e)); [reflexivity|exact IH].
Qed.
Lemma sdel_branch c : nth_error b i = Some c -> Permutation (sdel key (flat_map (els k) b)) (sdel key (els k c) ++ flat_map (els k) (others i b)).
Proof.
  intros E. rewrite (sdel_perm key _ _ (flat_others (els k) i b c E)), sdel_app. rewrite (sdel_none key (flat_map (els k) (others i b))); [apply Permutation_refl|].
  apply (others_out k level P b i key W eq_refl).
Qed.
End Branch.

(** * Lookup *)
Lemma lookup_ok k : forall level P t key n, wf k level P t -> k < n ->
  P (hash key) -> lookup n (N.shiftr (hash key) level) t key = Some (sfind key (els k t)).
Proof.
  induction k as [|k IH]; intros level P t key n W N PK; (destruct n as [|n]; [lia|]); cbn [MtModel.lookup]; destruct t as [|d|b]; try reflexivity; [destruct W|].
  change (N.to_nat (N.land (N.shiftr (hash key) level) mask)) with (chunk (hash key) level).
  destruct (slot_some k level P b W key) as (c & E & Wc). rewrite E, N.shiftr_shiftr.
  rewrite (IH (level + branch_lg)%N _ c key n Wc ltac:(lia) (conj PK eq_refl)). rewrite els_branch, (sfind_branch k level P b W key c E). reflexivity.
Qed.

(** * Writing *)
Definition written (m : wmode) (e : elem) (l l' : list elem) : Prop :=
  match m, sfind (fst e) l with
  | Fresh, Some _ | Refresh, None => Permutation l' l
  | _, _ => Permutation l' (sput e l)
  end.
Definition ups (m : wmode) (old : option elem) : bool := match m, old with Refresh, _ => false | _, Some _ => false | _, None => true end.

Lemma position_some key (d : list elem) i : position K V keq key d = Some i -> exists e, nth_error d i = Some e /\ fst e = key /\ sfind key d = Some e.
Proof.
  revert i. induction d as [|x d IH]; intros i H; [discriminate H|]. cbn in H. unfold sfind. cbn. destruct (keq key (fst x)) eqn:E.
  - injection H as <-. exists x. apply keq_ok in E. auto.
  - destruct (position K V keq key d) as [j|]; [|discriminate H]. injection H as <-. destruct (IH j eq_refl) as (e & E1 & E2 & E3). exists e. auto.
Qed.
Lemma position_none key (d : list elem) : position K V keq key d = None -> sfind key d = None.
Proof.
  unfold sfind. induction d as [|x d IH]; intros H; [reflexivity|]. cbn in *. destruct (keq key (fst x)); [discriminate H|].
  destruct (position K V keq key d); [discriminate H|]. apply IH. reflexivity.
Qed.
Lemma del_at (d : list elem) i e : NoDup (map fst d) -> nth_error d i = Some e -> firstn i d ++ skipn (S i) d = sdel (fst e) d.
Proof.
  revert i. induction d as [|x d IH]; intros i D E; [destruct i; discriminate E|]. cbn in D. inversion D as [|? ? N D']; subst. destruct i as [|i].
  - injection E as <-. cbn. unfold sdel. cbn. rewrite keq_refl. cbn. fold (sdel (fst x) d). rewrite sdel_none by exact N. reflexivity.
  - cbn [firstn app]. change (skipn (S (S i)) (x :: d)) with (skipn (S i) d). cbn in E. rewrite (IH i D' E). unfold sdel. cbn.
    rewrite (proj2 (keq_no (fst e) (fst x))); [reflexivity|]. intros Q. apply N. rewrite <- Q. apply in_map. apply (nth_error_In _ _ E).
Qed.
Lemma nth_repeat (x : tree) n j c : nth_error (repeat x n) j = Some c -> c = x.
Proof. intros E. apply nth_error_In in E. apply repeat_spec in E. exact E. Qed.

Definition patched (k : nat) (level : N) (P : N -> Prop) (t : tree) (e : elem) (m : wmode) (r : option (tree * bool * option elem)) : Prop :=
  exists t', r = Some (t', ups m (sfind (fst e) (els k t)), sfind (fst e) (els k t)) /\ wf k level P t' /\ written m e (els k t) (els k t').

Lemma patch_branch k : (forall level P t e m n, wf k level P t -> (level + 4 * N.of_nat k = 64)%N -> P (hash (fst e)) -> 2 * k < n -> patched k level P t e m (patch n level t e m)) ->
  forall level P b e m n, wf (S k) level P (TBranch b) -> (level + 4 * N.of_nat (S k) = 64)%N -> P (hash (fst e)) -> 2 * k + 1 < n ->
  patched (S k) level P (TBranch b) e m (patch n level (TBranch b) e m).
Proof.
  intros IH level P b e m n W LV PK N. destruct n as [|n]; [lia|]. cbn [MtModel.patch]. assert (LT : (level <? height_ub)%N = true) by (apply N.ltb_lt; unfold height_ub; lia). rewrite LT.
  destruct (slot_some k level P b W (fst e)) as (c & E & Wc). rewrite E.
  destruct (IH (level + branch_lg)%N _ c e m n Wc ltac:(unfold branch_lg; lia) (conj PK eq_refl) ltac:(lia)) as (c' & -> & Wc' & R).
  unfold patched. rewrite els_branch, (sfind_branch k level P b W (fst e) c E). exists (TBranch (set_nth (chunk (hash (fst e)) level) c' b)). split; [reflexivity|]. split.
  - apply (wf_set k level P b W (fst e)). exact Wc'.
  - unfold written in *. rewrite els_branch, (sfind_branch k level P b W (fst e) c E). pose proof (set_perm k level P b W (fst e) c') as PB. cbv zeta in PB.
    assert (S1 : Permutation (els k c') (els k c) -> Permutation (flat_map (els k) (set_nth (chunk (hash (fst e)) level) c' b)) (flat_map (els k) b)).
    { intros Q. rewrite PB, Q. symmetry. apply flat_others. exact E. }
    assert (S2 : Permutation (els k c') (sput e (els k c)) -> Permutation (flat_map (els k) (set_nth (chunk (hash (fst e)) level) c' b)) (sput e (flat_map (els k) b))).
    { intros Q. rewrite PB, Q. unfold MtSpec.sput. cbn [app]. constructor. symmetry. apply (sdel_branch k level P b W (fst e) c E). }
    destruct m, (sfind (fst e) (els k c)); auto.
Qed.

Lemma nb_wf k level (P : N -> Prop) e0 : P (hash (fst e0)) -> wf (S k) level P (TBranch (set_nth (chunk (hash (fst e0)) level) (TLeaf [e0]) (null_branch K V))).
Proof.
  intros P0. apply wf_branch. split; [rewrite set_len; reflexivity|]. intros j c E. rewrite nth_set in E by (unfold null_branch; rewrite repeat_length; apply chunk_lt).
  destruct (j =? chunk (hash (fst e0)) level) eqn:Q.
  - injection E as <-. apply Nat.eqb_eq in Q. subst j. assert (X : [e0] <> [] /\ NoDup (map fst [e0]) /\ (forall e, In e [e0] -> P (hash (fst e)) /\ chunk (hash (fst e)) level = chunk (hash (fst e0)) level) /\ (k <> 0 -> length [e0] = 1)).
    { split; [discriminate|]. split; [constructor; [intros []|constructor]|]. split; [intros x [<-|[]]; auto|reflexivity]. }
    destruct k; exact X.
  - apply nth_repeat in E. subst c. destruct k; exact I.
Qed.
Lemma nb_els k level e0 : els (S k) (TBranch (set_nth (chunk (hash (fst e0)) level) (TLeaf [e0]) (null_branch K V))) = [e0].
Proof.
  rewrite els_branch. set (i := chunk (hash (fst e0)) level). assert (IL : i < length (null_branch K V)) by (unfold null_branch; rewrite repeat_length; apply chunk_lt).
  assert (ND : flat_map (els k) (others i (null_branch K V)) = []).
  { assert (Z : forall x, In x (others i (null_branch K V)) -> x = TNull) by (intros x X; apply in_others in X; destruct X as (j & _ & X); apply nth_repeat in X; exact X).
    induction (others i (null_branch K V)) as [|x l IHl]; [reflexivity|]. cbn [flat_map]. rewrite (Z x (or_introl eq_refl)). replace (els k TNull) with (@nil elem) by (destruct k; reflexivity).
    apply IHl. intros y Y. apply Z. right. exact Y. }
  apply Permutation_length_1_inv. symmetry. rewrite (flat_others (els k) i _ (TLeaf [e0])) by (rewrite nth_set by exact IL; rewrite Nat.eqb_refl; reflexivity).
  rewrite set_others by exact IL. rewrite ND. destruct k; apply Permutation_refl.
Qed.

Lemma patch_ok k : forall level P t e m n, wf k level P t -> (level + 4 * N.of_nat k = 64)%N -> P (hash (fst e)) -> 2 * k < n -> patched k level P t e m (patch n level t e m).
Proof.
  induction k as [|k IH]; intros level P t e m n W LV PK N; (destruct n as [|n]; [lia|]).
  - (* the lowest level *)
    destruct t as [|d|b]; [| |destruct W].
    + cbn. unfold patched. cbn. assert (W1 : wf 0 level P (TLeaf [e])).
      { split; [discriminate|]. split; [constructor; [intros []|constructor]|]. split; [intros x [<-|[]]; exact PK|intros X; reflexivity]. }
      destruct m; eexists; (split; [reflexivity|]); (split; [first [exact W1|exact I]|]); unfold written; cbn; apply Permutation_refl.
    + destruct W as (NE & D & PD & _). cbn [MtModel.patch]. destruct d as [|e0 d0] eqn:ED; [congruence|]. rewrite <- ED in *.
      assert (LT : (level <? height_ub)%N = false) by (apply N.ltb_ge; unfold height_ub; lia). rewrite LT, andb_false_r. clear e0 d0 ED.
      assert (LEAF : forall d', d' <> [] -> NoDup (map fst d') -> (forall x, In x d' -> x = e \/ In x d) -> wf 0 level P (TLeaf d')).
      { intros d' A1 A2 A3. split; [exact A1|]. split; [exact A2|]. split; [|intros X; congruence]. intros x X. destruct (A3 x X) as [->|Y]; [exact PK|apply PD; exact Y]. }
      unfold patched. cbn [els]. destruct (position K V keq (fst e) d) as [i|] eqn:EP.
      * apply position_some in EP. destruct EP as (old & E1 & E2 & E3). rewrite E1, E3. unfold written. cbn [els]. rewrite E3. cbn [ups].
        assert (SD : firstn i d ++ skipn (S i) d = sdel (fst e) d) by (rewrite <- E2; apply del_at; assumption). rewrite SD.
        assert (W1 : wf 0 level P (TLeaf (sdel (fst e) d ++ [e]))).
        { apply LEAF.
          - intros X. destruct (sdel (fst e) d); discriminate X.
          - rewrite map_app. cbn. apply (Permutation_NoDup (Permutation_cons_append _ _)). constructor; [apply sdel_keys|apply sdel_nodup; exact D].
          - intros x X. apply in_app_or in X. destruct X as [X|[<-|[]]]; [right; apply sdel_in in X; tauto|left; reflexivity]. }
        assert (P1 : Permutation (sdel (fst e) d ++ [e]) (sput e d)) by (unfold sput; symmetry; apply Permutation_cons_append).
        destruct m; eexists; (split; [reflexivity|]); (split; [first [exact W1|apply LEAF; auto]|]); cbn [els]; first [exact P1|apply Permutation_refl].
      * apply position_none in EP. rewrite EP. unfold written. cbn [els]. rewrite EP. pose proof (proj1 (sfind_none _ _) EP) as NI.
        assert (W1 : wf 0 level P (TLeaf (d ++ [e]))).
        { apply LEAF.
          - intros X. destruct d; discriminate X.
          - rewrite map_app. cbn. apply (Permutation_NoDup (Permutation_cons_append _ _)). constructor; assumption.
          - intros x X. apply in_app_or in X. destruct X as [X|[<-|[]]]; auto. }
        assert (P1 : Permutation (d ++ [e]) (sput e d)) by (unfold sput; rewrite sdel_none by exact NI; symmetry; apply Permutation_cons_append).
        destruct m; eexists; (split; [reflexivity|]); (split; [first [exact W1|apply LEAF; auto]|]); cbn [els]; first [exact P1|apply Permutation_refl].
  - destruct t as [|d|b].
    + cbn. unfold patched. cbn. assert (W1 : wf (S k) level P (TLeaf [e])).
      { split; [discriminate|]. split; [constructor; [intros []|constructor]|]. split; [intros x [<-|[]]; exact PK|intros X; reflexivity]. }
      destruct m; eexists; (split; [reflexivity|]); (split; [first [exact W1|exact I]|]); unfold written; cbn; apply Permutation_refl.
    + pose proof W as WL. destruct W as (NE & D & PD & L1). specialize (L1 ltac:(discriminate)). destruct d as [|e0 [|? ?]]; [congruence| |discriminate L1].
      cbn [MtModel.patch]. assert (LT : (level <? height_ub)%N = true) by (apply N.ltb_lt; unfold height_ub; lia). rewrite LT, andb_true_r.
      destruct (keq (fst e) (fst e0)) eqn:EK; cbn [negb].
      * cbn [position]. rewrite EK. cbn [nth_error firstn skipn app]. unfold patched, written, sfind. cbn [els find]. rewrite EK. cbn [ups].
        apply keq_ok in EK.
        assert (W1 : wf (S k) level P (TLeaf [e])).
        { split; [discriminate|]. split; [constructor; [intros []|constructor]|]. split; [intros x [<-|[]]; exact PK|intros X; reflexivity]. }
        assert (P1 : Permutation [e] (sput e [e0])) by (unfold sput, sdel; cbn; rewrite (proj2 (keq_ok _ _) EK); apply Permutation_refl).
        destruct m; eexists; (split; [reflexivity|]); (split; [first [exact W1|exact WL]|]); cbn [els]; first [exact P1|apply Permutation_refl].
      * destruct m.
        2:{ unfold patched, written, sfind. cbn [els find]. rewrite EK. cbn [ups]. eexists. split; [reflexivity|]. split; [exact WL|]. apply Permutation_refl. }
        all: set (nb := set_nth (chunk (hash (fst e0)) level) (TLeaf [e0]) (null_branch K V)).
        all: pose proof (nb_wf k level P e0 (PD e0 (or_introl eq_refl))) as WB; pose proof (nb_els k level e0) as EB; fold nb in WB, EB.
        all: match goal with |- patched _ _ _ _ _ ?mm _ => pose proof (patch_branch k IH level P nb e mm n WB LV PK ltac:(lia)) as R end.
        all: unfold patched, written in *; rewrite EB in R; exact R.
    + apply patch_branch; [exact IH|exact W|exact LV|exact PK|lia].
Qed.

(** * Removing *)
Lemma fold_last key (d : list elem) : NoDup (map fst d) -> forall a, fold_left (fun a e => if keq key (fst e) then Some e else a) d a = match sfind key d with Some e => Some e | None => a end.
Proof.
  unfold sfind. induction d as [|x d IH]; intros D a; [reflexivity|]. cbn in D. inversion D as [|? ? N D']; subst. cbn [fold_left find]. rewrite (IH D'). destruct (keq key (fst x)) eqn:E; [|reflexivity].
  apply keq_ok in E. subst key. pose proof (proj2 (sfind_none (fst x) d) N) as Q. unfold MtSpec.sfind in Q. rewrite Q. reflexivity.
Qed.
Lemma survey_ok k (b : list tree) : forall cnt last only cnt' last' only', survey K V b cnt last only = (cnt', last', only') ->
  (only' = true -> only = true /\ cnt' = cnt + length (flat_map (els k) b)) /\
  (last' = None -> last = None /\ forall d, ~ In (TLeaf d) b) /\
  (forall l, last' = Some l -> last = Some l \/ (In l b /\ exists d, l = TLeaf d)) /\
  (cnt <= cnt') /\ (cnt' = cnt -> forall x, ~ In (TBranch x) b).
Proof.
  induction b as [|t b IH]; intros cnt last only cnt' last' only' H; cbn [survey] in H.
  - injection H as <- <- <-. cbn. repeat split; auto; lia.
  - destruct t as [|d|x].
    + destruct (IH _ _ _ _ _ _ H) as (A & B & C & D & F). replace (els k TNull) with (@nil elem) in * by (destruct k; reflexivity). cbn [flat_map]. replace (els k TNull) with (@nil elem) by (destruct k; reflexivity). cbn [app].
      split; [exact A|]. split; [intros Q; destruct (B Q) as (B1 & B2); split; [exact B1|]; intros d [X|X]; [discriminate X|apply (B2 d X)]|]. split; [|split; [exact D|intros Q y [X|X]; [discriminate X|apply (F Q y X)]]].
      intros l Q. destruct (C l Q) as [X|(X & Y)]; [left; exact X|right; split; [right; exact X|exact Y]].
    + destruct (IH _ _ _ _ _ _ H) as (A & B & C & D & F). cbn [flat_map]. replace (els k (TLeaf d)) with d by (destruct k; reflexivity). rewrite app_length.
      split; [intros Q; destruct (A Q); split; [assumption|lia]|]. split; [intros Q; destruct (B Q) as (X & _); discriminate X|]. split; [|split; [lia|]].
      * intros l Q. destruct (C l Q) as [X|(X & Y)]; [injection X as <-; right; split; [left; reflexivity|exists d; reflexivity]|right; split; [right; exact X|exact Y]].
      * intros Q y [X|X]; [discriminate X|]. apply (F ltac:(lia) y X).
    + destruct (IH _ _ _ _ _ _ H) as (A & B & C & D & F). split; [intros Q; destruct (A Q) as (X & _); discriminate X|].
      split; [intros Q; destruct (B Q) as (X & Y); split; [exact X|]; intros d [Z|Z]; [discriminate Z|apply (Y d Z)]|]. split; [|split; [lia|intros Q; lia]].
      intros l Q. destruct (C l Q) as [X|(X & Y)]; [left; exact X|right; split; [right; exact X|exact Y]].
Qed.
Lemma compress_ok k level P b t r : wf (S k) level P (TBranch b) -> compress K V b = (t, r) ->
  wf (S k) level P t /\ els (S k) t = flat_map (els k) b.
Proof.
  intros W H. unfold compress in H. destruct (survey K V b 0 None true) as ((cnt, last), only) eqn:SV. destruct (survey_ok k b _ _ _ _ _ _ SV) as (A & B & C & D & F).
  assert (R : (t, r) = (TBranch b, true) -> wf (S k) level P t /\ els (S k) t = flat_map (els k) b) by (intros Q; injection Q as -> _; split; [exact W|reflexivity]).
  destruct cnt as [|[|cnt]].
  - destruct last as [l|]; [apply R; congruence|]. injection H as <- _. split; [exact I|]. destruct (B eq_refl) as (_ & NL). specialize (F eq_refl). cbn [els].
    clear - NL F. induction b as [|x b IH]; [reflexivity|]. cbn [flat_map]. destruct x as [|d|y].
    + replace (els k TNull) with (@nil elem) by (destruct k; reflexivity). apply IH; [intros y Q; apply (F y); right; exact Q|intros d Q; apply (NL d); right; exact Q].
    + exfalso. apply (NL d). left. reflexivity.
    + exfalso. apply (F y). left. reflexivity.
  - destruct last as [l|]; [|apply R; destruct only; congruence]. destruct only; [|apply R; congruence]. injection H as <- _. destruct (A eq_refl) as (_ & LN).
    destruct (C l eq_refl) as [X|(IL & d & ->)]; [discriminate X|]. apply In_nth_error in IL. destruct IL as (i & Ei). pose proof (proj2 W i _ Ei) as WL. clear R SV A B C D F.
    assert (ND : d <> []) by (destruct k; apply WL).
    assert (EQ : flat_map (els k) b = d).
    { apply nth_error_split in Ei. destruct Ei as (b1 & b2 & -> & _). rewrite flat_map_app in *. cbn [flat_map] in *. replace (els k (TLeaf d)) with d in * by (destruct k; reflexivity). rewrite !app_length in LN.
      destruct d as [|e d]; [congruence|]. cbn [length] in LN. destruct (flat_map (els k) b1); [|cbn in LN; lia]. destruct (flat_map (els k) b2); [|cbn in LN; lia]. rewrite app_nil_r. reflexivity. }
    split; [|symmetry; exact EQ]. assert (WL' : NoDup (map fst d) /\ (forall e, In e d -> P (hash (fst e)) /\ chunk (hash (fst e)) level = i)) by (destruct k; split; apply WL).
    destruct WL' as (W1 & W2). split; [exact ND|]. split; [exact W1|]. split; [intros e Q; apply (W2 e Q)|]. intros _. rewrite EQ in LN. cbn in LN. symmetry. exact LN.
  - apply R. destruct last, only; congruence.
Qed.

Lemma remove_leaf : forall k level P d key n depth, wf k level P (TLeaf d) -> exists t' go, remove (S n) depth level (TLeaf d) key = Some (t', sfind key d, go) /\ wf k level P t' /\ Permutation (els k t') (sdel key d).
Proof.
  intros k level P d key n depth W. assert (W' : d <> [] /\ NoDup (map fst d) /\ (forall e, In e d -> P (hash (fst e))) /\ (k <> 0 -> length d = 1)) by (destruct k; exact W).
    destruct W' as (NE & D & PD & L1). cbn [MtModel.remove]. fold (sdel key d). rewrite (fold_last key d D None).
    replace (match sfind key d with Some e => Some e | None => None end) with (sfind key d) by (destruct (sfind key d); reflexivity).
    eexists. eexists. split; [reflexivity|]. destruct (sdel key d) as [|x r] eqn:ES.
    - split; [destruct k; exact I|]. destruct k; constructor.
    - assert (WF : (x :: r <> []) /\ NoDup (map fst (x :: r)) /\ (forall e, In e (x :: r) -> P (hash (fst e))) /\ (k <> 0 -> length (x :: r) = 1)).
      { rewrite <- ES. split; [rewrite ES; discriminate|]. split; [apply sdel_nodup; exact D|]. split; [intros e Q; apply sdel_in in Q; apply PD; tauto|].
        intros Q. specialize (L1 Q). pose proof (sdel_length key d D) as LL. rewrite ES in *. cbn [length] in *. lia. }
      split; destruct k; first [exact WF|apply Permutation_refl].
Qed.
Lemma remove_ok k : forall level P t key n depth, wf k level P t -> (level + 4 * N.of_nat k = 64)%N -> P (hash key) -> k < n -> depth + k <= branch_mx ->
  exists t' go, remove n depth level t key = Some (t', sfind key (els k t), go) /\ wf k level P t' /\ Permutation (els k t') (sdel key (els k t)).
Proof.
  induction k as [|k IH]; intros level P t key n depth W LV PK N DP; (destruct n as [|n]; [lia|]); destruct t as [|d|b].
  - cbn. eexists. eexists. split; [reflexivity|]. split; [exact I|constructor].
  - apply (remove_leaf 0). exact W.
  - destruct W.
  - cbn. eexists. eexists. split; [reflexivity|]. split; [exact I|constructor].
  - apply (remove_leaf (S k)). exact W.
  - cbn [MtModel.remove]. assert (LT : (level <? height_ub)%N = true) by (apply N.ltb_lt; unfold height_ub; lia). assert (DL : (depth <? branch_mx) = true) by (apply Nat.ltb_lt; lia).
    rewrite LT, DL. cbn [andb]. destruct (slot_some k level P b W key) as (c & E & Wc). rewrite E.
    destruct (IH (level + branch_lg)%N _ c key n (S depth) Wc ltac:(unfold branch_lg; lia) (conj PK eq_refl) ltac:(lia) ltac:(lia)) as (c' & go & -> & Wc' & R).
    rewrite els_branch, (sfind_branch k level P b W key c E). set (b' := set_nth (chunk (hash key) level) c' b).
    assert (WB : wf (S k) level P (TBranch b')) by (apply (wf_set k level P b W key); exact Wc').
    assert (PB : Permutation (flat_map (els k) b') (sdel key (flat_map (els k) b))).
    { unfold b'. rewrite (set_perm k level P b W key c'). rewrite (sdel_branch k level P b W key c E). apply Permutation_app_tail. exact R. }
    destruct go; [|eexists; eexists; split; [reflexivity|split; [exact WB|exact PB]]].
    destruct (1 <? length (filter (fun x => negb (is_null K V x)) b')); [eexists; eexists; split; [reflexivity|split; [exact WB|exact PB]]|].
    destruct (compress K V b') as (t', r) eqn:EC. destruct (compress_ok k level P b' t' r WB EC) as (W' & EE).
    eexists. eexists. split; [reflexivity|]. split; [exact W'|]. rewrite EE. exact PB.
Qed.

(** * Histories *)
Definition any (h : N) : Prop := True.
Record Rep (s : idx K V) (l : list elem) : Prop := MkRep {
  r_wf : wf 16 0 any (root K V s);
  r_els : Permutation (els 16 (root K V s)) l;
  r_len : len K V s = (N.of_nat (length l) mod 2 ^ 64)%N
}.
Lemma rep_nodup s l : Rep s l -> NoDup (map fst l).
Proof. intros R. apply (Permutation_NoDup (Permutation_map fst (r_els _ _ R))). exact (els_nodup _ _ _ _ (r_wf _ _ R)). Qed.
Lemma rep_find s l k : Rep s l -> sfind k (els 16 (root K V s)) = sfind k l.
Proof. intros R. apply sfind_perm; [exact (els_nodup _ _ _ _ (r_wf _ _ R))|exact (r_els _ _ R)]. Qed.
Lemma rep_lookup s l k : Rep s l -> lookup turns (hash k) (root K V s) k = Some (sfind k l).
Proof.
  intros R. rewrite <- (rep_find s l k R). rewrite <- (N.shiftr_0_r (hash k)). apply (lookup_ok 16 0 any); [exact (r_wf _ _ R)|unfold turns; lia|exact I].
Qed.
Lemma incr_of n : incr (N.of_nat n mod 2 ^ 64) = (N.of_nat (S n) mod 2 ^ 64)%N.
Proof. unfold incr. rewrite N.add_mod_idemp_l by discriminate. f_equal. lia. Qed.
Lemma decr_of n : decr (N.of_nat (S n) mod 2 ^ 64) = (N.of_nat n mod 2 ^ 64)%N.
Proof.
  unfold decr. rewrite N.add_mod_idemp_l by discriminate. replace (N.of_nat (S n) + (2 ^ 64 - 1))%N with (N.of_nat n + 1 * 2 ^ 64)%N by lia. apply N.mod_add. discriminate.
Qed.
Definition spatch (m : wmode) (e : elem) (l : list elem) : list elem :=
  match m, sfind (fst e) l with Fresh, Some _ | Refresh, None => l | _, _ => sput e l end.
Lemma rep_patch s l e m : Rep s l -> exists s', run_patch K V keq hash s e m = Some (s', sfind (fst e) l) /\ Rep s' (spatch m e l).
Proof.
  intros R. unfold run_patch. destruct (patch_ok 16 0 any (root K V s) e m turns (r_wf _ _ R) eq_refl I ltac:(unfold turns; lia)) as (t' & -> & W & RR).
  rewrite (rep_find s l _ R). eexists. split; [reflexivity|]. unfold written in RR. rewrite (rep_find s l _ R) in RR.
  assert (Pm : Permutation (els 16 t') (spatch m e l)).
  { unfold spatch. destruct m, (sfind (fst e) l); (eapply Permutation_trans; [exact RR|]); first [exact (r_els _ _ R)|apply sput_perm; exact (r_els _ _ R)]. }
  constructor; cbn [root len]; [exact W|exact Pm|]. rewrite (r_len _ _ R). unfold spatch, ups. pose proof (sdel_length (fst e) l (rep_nodup _ _ R)) as LL.
  destruct m, (sfind (fst e) l) as [o|]; cbn [is_some] in LL; try reflexivity; unfold sput; cbn [length]; rewrite ?incr_of; f_equal; f_equal; lia.
Qed.
Lemma rep_remove s l k : Rep s l -> exists s', run_remove K V keq hash s k = Some (s', sfind k l) /\ Rep s' (sdel k l).
Proof.
  intros R. unfold run_remove. destruct (remove_ok 16 0 any (root K V s) k turns 0 (r_wf _ _ R) eq_refl I ltac:(unfold turns; lia) ltac:(unfold branch_mx; lia)) as (t' & go & -> & W & RR).
  rewrite (rep_find s l _ R). eexists. split; [reflexivity|]. constructor; cbn [root len]; [exact W|eapply Permutation_trans; [exact RR|apply sdel_perm; exact (r_els _ _ R)]|].
  rewrite (r_len _ _ R). pose proof (sdel_length k l (rep_nodup _ _ R)) as LL. destruct (sfind k l) as [o|]; cbn [is_some] in *; rewrite LL.
  - rewrite Nat.add_1_r. apply decr_of.
  - rewrite Nat.add_0_r. reflexivity.
Qed.
Lemma rep_exec s l o : Rep s l -> exists s', exec K V keq hash s o = Some (s', snd (sstep K V keq l o)) /\ Rep s' (fst (sstep K V keq l o)).
Proof.
  intros R. destruct o as [e|e|e|e|k|k|k|k|k|k|]; cbn [exec sstep].
  - destruct (rep_patch s l e Fresh R) as (s' & -> & R'). exists s'. cbn [option_map fst snd]. unfold spatch in R'. destruct (sfind (fst e) l); cbn; auto.
  - destruct (rep_patch s l e Any R) as (s' & -> & R'). exists s'. cbn [option_map fst snd]. unfold spatch in R'. destruct (sfind (fst e) l); cbn; auto.
  - destruct (rep_patch s l e Refresh R) as (s' & -> & R'). exists s'. cbn [option_map fst snd]. unfold spatch in R'. destruct (sfind (fst e) l); cbn; auto.
  - destruct (rep_patch s l e Refresh R) as (s' & -> & R'). exists s'. cbn [option_map fst snd]. unfold spatch in R'. destruct (sfind (fst e) l); cbn; auto.
  - rewrite (rep_lookup s l k R). exists s. cbn. destruct (sfind k l); auto.
  - rewrite (rep_lookup s l k R). exists s. cbn. auto.
  - rewrite (rep_lookup s l k R). exists s. cbn. auto.
  - destruct (rep_remove s l k R) as (s' & -> & R'). exists s'. cbn. destruct (sfind k l); auto.
  - destruct (rep_remove s l k R) as (s' & -> & R'). exists s'. cbn. auto.
  - destruct (rep_remove s l k R) as (s' & -> & R'). exists s'. cbn. auto.
  - exists s. cbn. rewrite (r_len _ _ R). auto.
Qed.
Lemma rep_new : Rep (idx_new K V) [].
Proof. constructor; [exact I|constructor|reflexivity]. Qed.
Lemma exec_all_ok os : forall s l, Rep s l -> exists s', exec_all K V keq hash s os = Some (s', snd (srun K V keq l os)) /\ Rep s' (fst (srun K V keq l os)).
Proof.
  induction os as [|o os IH]; intros s l R; cbn [exec_all srun]; [exists s; auto|]. destruct (rep_exec s l o R) as (s1 & -> & R1).
  destruct (sstep K V keq l o) as (l1, x). cbn [fst snd] in *. destruct (IH s1 l1 R1) as (s2 & -> & R2). destruct (srun K V keq l1 os) as (l2, xs). exists s2. auto.
Qed.

(** * Scans *)
(** what is left to visit *)
Fixpoint todo (k : nat) (st : stack K V) : list elem :=
  match st with
  | [] => []
  | (t, i) :: r => (match t with TNull => [] | TLeaf d => skipn i d | TBranch b => match k with 0 => [] | S k => flat_map (els k) (skipn i b) end end) ++ todo (S k) r
  end.
(** [k]: levels below the top *)
Fixpoint wst (k : nat) (st : stack K V) : Prop :=
  match st with
  | [] => k = 17
  | (t, i) :: r => (exists level P, wf k level P t) /\ wst (S k) r
  end.
Fixpoint cost (k : nat) (t : tree) : nat := S (match t, k with TBranch b, S k => list_sum (map (fun c => S (cost k c)) b) | _, _ => 0 end).
Fixpoint costs (k : nat) (st : stack K V) : nat :=
  match st with
  | [] => 0
  | (t, i) :: r => S (match t, k with TBranch b, S k => list_sum (map (fun c => S (cost k c)) (skipn i b)) | _, _ => 0 end) + costs (S k) r
  end.
Lemma wst_len k st : wst k st -> length st + k = 17.
Proof. revert k. induction st as [|(t, i) st IH]; intros k W; cbn in *; [exact W|]. destruct W as (_ & W). specialize (IH (S k) W). lia. Qed.
Lemma skipn_nth {B} i (l : list B) c : nth_error l i = Some c -> skipn i l = c :: skipn (S i) l.
Proof. revert l. induction i as [|i IH]; intros [|y l] E; try discriminate E; cbn in E; [injection E as ->; reflexivity|]. cbn [skipn]. rewrite (IH l E). reflexivity. Qed.

Lemma next_ok n : forall k st, wst k st -> costs k st < n ->
  exists st' k', next K V n st = Some (hd_error (todo k st), st') /\ wst k' st' /\ todo k' st' = tl (todo k st) /\ costs k' st' <= costs k st.
Proof.
  induction n as [|n IH]; intros k st W C; [lia|]. destruct st as [|(t, i) r]; [exists [], k; cbn; auto|]. pose proof W as W0. destruct W as ((level & P & Wt) & Wr). cbn [next].
  destruct t as [|d|b].
  - cbn [costs] in C. destruct (IH (S k) r Wr) as (st' & k' & E & W' & T & CC); [destruct k; cbn in C; lia|]. exists st', k'. cbn [todo app]. split; [exact E|]. split; [exact W'|]. split; [exact T|].
    cbn [costs]. lia.
  - destruct (nth_error d i) as [e|] eqn:E.
    + exists ((TLeaf d, S i) :: r), k. cbn [todo]. rewrite (skipn_nth i d e E). cbn [hd_error app tl]. split; [reflexivity|]. split; [exact W0|]. split; [reflexivity|].
      cbn [costs]. destruct k; lia.
    + assert (SK : skipn i d = []) by (apply skipn_all2; apply nth_error_None; exact E). cbn [todo]. rewrite SK. cbn [app].
      destruct (IH (S k) r Wr) as (st' & k' & E' & W' & T & CC); [cbn [costs] in C; destruct k; lia|]. exists st', k'. split; [exact E'|]. split; [exact W'|]. split; [exact T|]. cbn [costs]. lia.
  - destruct k as [|k]; [destruct Wt|]. destruct Wt as (LB & Wc). destruct (i <? max_tree_height) eqn:LI.
    + apply Nat.ltb_lt in LI. destruct (nth_error b i) as [c|] eqn:E; [|apply nth_error_None in E; unfold max_tree_height, branch_mx in *; lia].
      unfold push. assert (L : length ((TBranch b, S i) :: r) =? S branch_mx = false).
      { apply Nat.eqb_neq. apply wst_len in W0. cbn [length] in *. unfold branch_mx. lia. }
      rewrite L. specialize (Wc i c E).
      assert (W1 : wst k ((c, 0) :: (TBranch b, S i) :: r)).
      { split; [exists (level + branch_lg)%N, (fun h => P h /\ chunk h level = i); exact Wc|exact W0]. }
      assert (T1 : todo k ((c, 0) :: (TBranch b, S i) :: r) = todo (S k) ((TBranch b, i) :: r)).
      { cbn [todo]. rewrite (skipn_nth i b c E). cbn [flat_map]. rewrite <- app_assoc. f_equal. destruct c as [|d|b']; destruct k; reflexivity. }
      assert (C1 : costs k ((c, 0) :: (TBranch b, S i) :: r) < costs (S k) ((TBranch b, i) :: r)).
      { cbn [costs]. rewrite (skipn_nth i b c E). cbn [map list_sum fold_right]. unfold list_sum. destruct c as [|d|b'], k; cbn [cost skipn]; unfold list_sum; lia. }
      destruct (IH k _ W1 ltac:(lia)) as (st' & k' & E' & W' & T & CC). rewrite T1 in *. exists st', k'. split; [exact E'|]. split; [exact W'|]. split; [exact T|]. lia.
    + apply Nat.ltb_ge in LI. assert (SK : skipn i b = []) by (apply skipn_all2; rewrite LB; exact LI).
      destruct (IH (S (S k)) r Wr) as (st' & k' & E' & W' & T & CC); [cbn [costs] in C; lia|]. exists st', k'. cbn [todo]. rewrite SK. cbn [flat_map app]. split; [exact E'|]. split; [exact W'|]. split; [exact T|].
      cbn [costs]. lia.
Qed.
Lemma scan_ok l : forall m n k st, wst k st -> todo k st = l -> costs k st < n -> length l < m -> scan K V m n st = Some l.
Proof.
  induction l as [|e l IH]; intros m n k st W T C M; (destruct m as [|m]; [lia|]); cbn [scan]; destruct (next_ok n k st W C) as (st' & k' & -> & W' & T' & CC); rewrite T in *; cbn [hd_error tl] in *.
  - reflexivity.
  - cbn in M. rewrite (IH m n k' st' W' T' ltac:(lia) ltac:(lia)). reflexivity.
Qed.
Lemma scan_rep s l : Rep s l -> exists n, forall m, length l < m -> exists l', scan K V m n (iter_new K V s) = Some l' /\ Permutation l' l.
Proof.
  intros R. exists (S (costs 16 (iter_new K V s))). intros m M. exists (els 16 (root K V s)). split; [|exact (r_els _ _ R)].
  assert (L : length (els 16 (root K V s)) = length l) by (apply Permutation_length; exact (r_els _ _ R)).
  apply (scan_ok _ _ _ 16); [| |lia|lia].
  - split; [exists 0%N, any; exact (r_wf _ _ R)|reflexivity].
  - cbn [todo iter_new]. rewrite app_nil_r. destruct (root K V s) as [|d|b]; reflexivity.
Qed.
End Proofs.
