(** Proofs for C89. *)
From Coq Require Import List Arith NArith Bool Lia Permutation.
From Verif Require Import MtModel MtSpec MtProofs CostModel.
Import ListNotations.
Local Open Scope nat_scope.

Section P.
Variables K V : Type.
Variable keq : K -> K -> bool.
Hypothesis keq_ok : forall a b, keq a b = true <-> a = b.
Variable hash : K -> N.
Local Notation elem := (K * V)%type.
Notation tree := (tree K V).
Notation wf := (wf K V hash).
Notation els := (els K V).
Notation cmps := (cmps K V keq).

Lemma lookup_erase n : forall h t k, option_map fst (lookup_c K V keq n h t k) = lookup K V keq n h t k.
Proof. induction n as [|n IH]; intros h t k; [reflexivity|]. destruct t as [|d|b]; cbn; try reflexivity. destruct (nth_error b _); [apply IH|reflexivity]. Qed.
Lemma patch_erase n : forall level t e m, option_map fst (patch_c K V keq hash n level t e m) = patch K V keq hash n level t e m.
Proof.
  induction n as [|n IH]; intros level t e m; [reflexivity|]. destruct t as [|d|b]; cbn [patch_c patch].
  - destruct m; reflexivity.
  - destruct d as [|e0 d]; [reflexivity|]. destruct (negb _ && _).
    + destruct m; try reflexivity; (rewrite <- IH; destruct (patch_c _ _ _ _ n _ _ _ _) as [(r & (a & b))|]; reflexivity).
    + cbv zeta. destruct (position K V keq (fst e) (e0 :: d)) as [i|]; [|destruct m; reflexivity]. destruct (nth_error (e0 :: d) i); [|reflexivity]. destruct m; reflexivity.
  - destruct (level <? height_ub)%N; [|reflexivity]. cbv zeta. destruct (nth_error b _); [|reflexivity]. rewrite <- IH. destruct (patch_c _ _ _ _ n _ _ _ _) as [(((c' & up) & old) & w)|]; reflexivity.
Qed.

Lemma cmps_le k (d : list elem) : cmps k d <= length d.
Proof. induction d as [|e d IH]; cbn; [lia|]. destruct (keq k (fst e)); lia. Qed.
Lemma cmps_absent k (d : list elem) : ~ In k (map fst d) -> cmps k d = length d.
Proof.
  induction d as [|e d IH]; intros N; [reflexivity|]. cbn in N |- *. destruct (keq k (fst e)) eqn:E; [apply keq_ok in E; exfalso; apply N; left; congruence|]. rewrite IH; [reflexivity|]. intros I. apply N. right. exact I.
Qed.

(** the leaf a lookup ends in *)
Lemma lookup_leaf k : forall level P t key n, wf k level P t -> k < n -> P (hash key) ->
  exists d r, lookup_c K V keq n (N.shiftr (hash key) level) t key = Some (r, cmps key d) /\
    NoDup (map fst d) /\ incl d (els k t) /\
    (forall e, In e (els k t) -> hash (fst e) = hash key -> In e d) /\
    (length d <= 1 \/ forall e, In e d -> P (hash (fst e)) /\ forall j, j < k -> chunk (hash (fst e)) (level + 4 * N.of_nat j) = chunk (hash key) (level + 4 * N.of_nat j)).
Proof.
  induction k as [|k IH]; intros level P t key n W N PK; (destruct n as [|n]; [lia|]); cbn [lookup_c].
  - destruct t as [|d|b]; [exists [], None| exists d, (find (fun e => keq key (fst e)) d)|destruct W].
    + split; [reflexivity|]. split; [constructor|]. split; [intros e []|]. split; [intros e IN _; destruct IN|]. left. cbn. lia.
    + destruct W as (_ & D & C & _). split; [reflexivity|]. split; [exact D|]. split; [apply incl_refl|]. split; [intros e I _; exact I|]. right. intros e I. split; [apply C; exact I|intros j J; lia].
  - destruct t as [|d|b]; [exists [], None| exists d, (find (fun e => keq key (fst e)) d)|].
    + split; [reflexivity|]. split; [constructor|]. split; [intros e []|]. split; [intros e IN _; destruct IN|]. left. cbn. lia.
    + destruct W as (_ & D & C & L). split; [reflexivity|]. split; [exact D|]. split; [apply incl_refl|]. split; [intros e I _; exact I|]. left. rewrite L; [lia|discriminate].
    + change (N.to_nat (N.land (N.shiftr (hash key) level) mask)) with (chunk (hash key) level).
      destruct (slot_some K V hash k level P b W key) as (c & E & Wc). rewrite E, N.shiftr_shiftr.
      destruct (IH (level + branch_lg)%N _ c key n Wc ltac:(lia) (conj PK eq_refl)) as (d & r & LK & D & I1 & I2 & O). exists d, r. split; [exact LK|]. split; [exact D|].
      rewrite els_branch. split; [intros e I; apply in_flat_map; exists c; split; [eapply nth_error_In; exact E|apply I1; exact I]|]. split.
      * intros e I H. apply I2; [|exact H]. apply in_flat_map in I. destruct I as (c' & Ic & I). apply In_nth_error in Ic. destruct Ic as (i & Ei).
        destruct (els_path K V hash _ _ _ _ _ (proj2 W i c' Ei) I) as (_ & Q). rewrite H in Q. rewrite Q in E. rewrite Ei in E. injection E as <-. exact I.
      * destruct O as [O|O]; [left; exact O|]. right. intros e I. destruct (O e I) as ((PE & C) & J). split; [exact PE|]. intros j L. destruct j as [|j].
        -- rewrite N.mul_0_r, N.add_0_r. exact C.
        -- specialize (J j ltac:(lia)). unfold branch_lg in J. replace (level + 4 * N.of_nat (S j))%N with (level + 4 + 4 * N.of_nat j)%N by lia. exact J.
Qed.

(** equal on sixteen groups of four bits *)
Lemma chunk_bits x y level : chunk x level = chunk y level -> forall i, (i < 4)%N -> N.testbit x (level + i) = N.testbit y (level + i).
Proof.
  unfold chunk, mask. intros E i I. apply N2Nat.inj in E. assert (T : forall z, N.testbit (N.land (N.shiftr z level) 15) i = N.testbit z (level + i)).
  { intros z. rewrite N.land_spec, N.shiftr_spec'. replace (N.testbit 15 i) with true; [rewrite andb_true_r; f_equal; lia|]. change 15%N with (N.ones 4). rewrite N.ones_spec_low by exact I. reflexivity. }
  rewrite <- !T, E. reflexivity.
Qed.
Lemma chunks_eq x y : (x < 2 ^ 64)%N -> (y < 2 ^ 64)%N -> (forall j, j < 16 -> chunk x (4 * N.of_nat j) = chunk y (4 * N.of_nat j)) -> x = y.
Proof.
  intros X Y C. apply N.bits_inj. intros b. destruct (N.lt_ge_cases b 64) as [B|B].
  - assert (BJ : b = (4 * N.of_nat (N.to_nat (b / 4)) + b mod 4)%N) by (rewrite Nnat.N2Nat.id; apply N.div_mod'). rewrite BJ. apply chunk_bits; [apply C|apply N.mod_lt; discriminate].
    assert (b / 4 < 16)%N by (apply N.div_lt_upper_bound; [discriminate|exact B]). lia.
  - assert (Z : forall z, (z < 2 ^ 64)%N -> N.testbit z b = false).
    { intros z L. destruct (N.eq_dec z 0) as [->|NZ]; [apply N.bits_0|]. apply N.bits_above_log2. apply N.log2_lt_pow2; [lia|]. eapply N.lt_le_trans; [exact L|]. apply N.pow_le_mono_r; [discriminate|exact B]. }
    rewrite (Z x X), (Z y Y). reflexivity.
Qed.

(** an insertion of a new key among keys with the same hash copies all of them *)
Lemma same_len k level P b key c : wf (S k) level P (TBranch b) -> nth_error b (chunk (hash key) level) = Some c ->
  (forall x, In x (els (S k) (TBranch b)) -> hash (fst x) = hash key) -> length (els k c) = length (els (S k) (TBranch b)).
Proof.
  intros W E H. pose proof (els_nodup K V hash _ _ _ _ W) as D1. destruct (slot_some K V hash k level P b W key) as (c' & E' & Wc). rewrite E in E'. injection E' as <-.
  pose proof (els_nodup K V hash _ _ _ _ Wc) as D2. apply Nat.le_antisymm; (apply NoDup_incl_length; [eapply NoDup_map_inv; eassumption|]); rewrite els_branch in *; intros x I.
  - apply in_flat_map. exists c. split; [eapply nth_error_In; exact E|exact I].
  - pose proof (H x I) as HX. apply in_flat_map in I. destruct I as (c2 & Ic & I). apply In_nth_error in Ic. destruct Ic as (i & Ei).
    destruct (els_path K V hash _ _ _ _ _ (proj2 W i c2 Ei) I) as (_ & Q). rewrite HX in Q. rewrite Q, Ei in E. injection E as <-. exact I.
Qed.
Lemma position_absent k (d : list elem) : ~ In k (map fst d) -> position K V keq k d = None.
Proof.
  induction d as [|x d IH]; intros N; [reflexivity|]. cbn in N |- *. destruct (keq k (fst x)) eqn:E; [apply keq_ok in E; exfalso; apply N; left; congruence|]. rewrite IH; [reflexivity|]. intros I. apply N. right. exact I.
Qed.
Lemma insert_leaf n level d e : d <> [] -> ~ In (fst e) (map fst d) -> (level <? height_ub)%N = false ->
  patch_c K V keq hash (S n) level (TLeaf d) e Fresh = Some ((TLeaf (d ++ [e]), true, None), (S (length d), length d)).
Proof.
  intros ND N L. destruct d as [|e0 d]; [contradiction|]. cbn [patch_c]. rewrite L, andb_false_r. rewrite (position_absent _ _ N), (cmps_absent _ _ N). reflexivity.
Qed.
Lemma insert_same k : forall level P t e n, wf k level P t -> (level + 4 * N.of_nat k = 64)%N -> 2 * k < n ->
  (forall x, In x (els k t) -> hash (fst x) = hash (fst e)) -> P (hash (fst e)) -> ~ In (fst e) (map fst (els k t)) -> els k t <> [] ->
  exists r a, patch_c K V keq hash n level t e Fresh = Some (r, (a, length (els k t))) /\ length (els k t) < a.
Proof.
  induction k as [|k IH]; intros level P t e n W LV N H PE NI NE; (destruct n as [|n]; [lia|]).
  - destruct t as [|d|b]; [contradiction NE; reflexivity| |destruct W]. cbn [MtProofs.els] in *. rewrite insert_leaf; [|exact NE|exact NI|apply N.ltb_ge; unfold height_ub; lia]. eexists _, _. split; [reflexivity|lia].
  - assert (LT : (level <? height_ub)%N = true) by (apply N.ltb_lt; unfold height_ub; lia).
    assert (BR : forall b n, wf (S k) level P (TBranch b) -> 2 * k + 1 < n -> (forall x, In x (els (S k) (TBranch b)) -> hash (fst x) = hash (fst e)) ->
      ~ In (fst e) (map fst (els (S k) (TBranch b))) -> els (S k) (TBranch b) <> [] ->
      exists r a, patch_c K V keq hash n level (TBranch b) e Fresh = Some (r, (a, length (els (S k) (TBranch b)))) /\ length (els (S k) (TBranch b)) < a).
    { clear - LT LV IH PE. intros b n W N H NI NE. destruct n as [|n]; [lia|]. cbn [patch_c]. rewrite LT. cbv zeta. destruct (slot_some K V hash k level P b W (fst e)) as (c & E & Wc). rewrite E.
      pose proof (same_len _ _ _ _ _ _ W E H) as SL.
      assert (IC : incl (els k c) (els (S k) (TBranch b))) by (intros x I; rewrite els_branch; apply in_flat_map; exists c; split; [eapply nth_error_In; exact E|exact I]).
      destruct (IH (level + branch_lg)%N _ c e n Wc) as (((c' & up) & old) & a & Q & A).
      - unfold branch_lg. lia.
      - lia.
      - intros x I. apply H. apply IC. exact I.
      - split; [exact PE|reflexivity].
      - intros I. apply NI. apply in_map_iff in I. destruct I as (x & <- & I). apply in_map. apply IC. exact I.
      - intros Z. rewrite Z in SL. apply NE. destruct (els (S k) (TBranch b)); [reflexivity|discriminate SL].
      - rewrite Q. rewrite SL in *. eexists _, _. split; [reflexivity|exact A]. }
    destruct t as [|d|b]; [contradiction NE; reflexivity| |apply BR; try assumption; lia].
    cbn [MtProofs.els] in H, NI, NE |- *. destruct W as (_ & D & C & L). specialize (L ltac:(discriminate)). destruct d as [|e0 [|? ?]]; try discriminate L. clear L. cbn [patch_c].
    assert (NK : keq (fst e) (fst e0) = false) by (destruct (keq (fst e) (fst e0)) eqn:Q; [|reflexivity]; apply keq_ok in Q; exfalso; apply NI; left; congruence).
    rewrite NK, LT. cbn [negb andb].
    pose proof (nb_els K V hash k level e0) as NBE. destruct (BR (set_nth (chunk (hash (fst e0)) level) (TLeaf [e0]) (null_branch K V)) n) as (r & a & Q & A).
    + apply nb_wf. apply C. left. reflexivity.
    + lia.
    + rewrite NBE. exact H.
    + rewrite NBE. exact NI.
    + rewrite NBE. discriminate.
    + rewrite NBE in *. rewrite Q. eexists _, _. split; [reflexivity|]. lia.
Qed.
Lemma insert_work_same s l e : Rep K V hash s l -> (forall x, In x l -> hash (fst x) = hash (fst e)) -> ~ In (fst e) (map fst l) -> l <> [] ->
  exists a, insert_work K V keq hash s e = Some (a, length l) /\ length l < a.
Proof.
  intros R H NI NE. pose proof (r_els _ _ _ _ _ R) as PE. pose proof (Permutation_length PE) as PL.
  destruct (insert_same 16 0%N _ (root K V s) e turns (r_wf _ _ _ _ _ R) eq_refl ltac:(unfold turns; lia)) as (r & a & Q & A).
  - intros x I. apply H. apply (Permutation_in _ PE). exact I.
  - exact Logic.I.
  - intros I. apply NI. apply (Permutation_in _ (Permutation_map fst PE)). exact I.
  - intros Z. rewrite Z in PL. destruct l; [contradiction NE; reflexivity|discriminate PL].
  - unfold insert_work. rewrite Q. exists a. cbn [option_map snd]. rewrite PL in *. split; [reflexivity|exact A].
Qed.

Hypothesis hash64 : forall k, (hash k < 2 ^ 64)%N.
Lemma nodup_incl_len {A} (l l' : list A) : NoDup l -> incl l l' -> length l <= length l'.
Proof. apply NoDup_incl_length. Qed.
(** the work of a lookup: between the keys with this hash (if the key is not there) and their number or one *)
Lemma lookup_work_ok s l key : Rep K V hash s l ->
  exists w, lookup_work K V keq hash s key = Some w /\
    w <= Nat.max 1 (length (filter (fun e => N.eqb (hash (fst e)) (hash key)) l)) /\
    (~ In key (map fst l) -> length (filter (fun e => N.eqb (hash (fst e)) (hash key)) l) <= w).
Proof.
  intros R. pose proof (r_wf _ _ _ _ _ R) as W. pose proof (els_nodup K V hash 16 0%N _ _ W) as DE.
  assert (PE : Permutation (els 16 (root K V s)) l) by exact (r_els _ _ _ _ _ R).
  destruct (lookup_leaf 16 0%N _ (root K V s) key turns W ltac:(unfold turns; lia) Logic.I) as (d & r & LK & D & I1 & I2 & O).
  rewrite N.shiftr_0_r in LK. exists (cmps key d). unfold lookup_work. rewrite LK. split; [reflexivity|]. split.
  - pose proof (cmps_le key d) as LE. destruct O as [O|O]; [lia|]. assert (L2 : length d <= length (filter (fun e => N.eqb (hash (fst e)) (hash key)) l)); [|lia].
    apply NoDup_incl_length; [eapply NoDup_map_inv; exact D|]. intros e I. apply filter_In. split; [apply (Permutation_in _ PE); apply I1; exact I|]. apply N.eqb_eq. apply chunks_eq; [apply hash64|apply hash64|].
    intros j J. destruct (O e I) as (_ & C). specialize (C j J). exact C.
  - intros NI. rewrite cmps_absent.
    + apply NoDup_incl_length; [apply NoDup_filter; eapply NoDup_map_inv; exact (rep_nodup K V hash _ _ R)|]. intros e I. apply filter_In in I. destruct I as (I & H). apply N.eqb_eq in H. apply I2; [apply (Permutation_in _ (Permutation_sym PE)); exact I|exact H].
    + intros I. apply NI. apply in_map_iff in I. destruct I as (e & <- & I). apply in_map. apply (Permutation_in _ PE). apply I1. exact I.
Qed.
End P.
