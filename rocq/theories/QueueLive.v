(** The change queue: operations finish (lock freedom). *)
From Coq Require Import List Arith Bool Lia Permutation.
From Verif Require Import QueueModel QueueSpec QueueProofs.
Import ListNotations.

Section Live.
Variable A : Type.
Notation st := (st A).
Notation pc := (pc A).
Notation live := (@QueueModel.live A).
Notation nxt := (@QueueModel.nxt A).
Notation head := (@QueueModel.head A).
Notation tail := (@QueueModel.tail A).
Notation pcs := (@QueueModel.pcs A).
Notation Inv := (Inv A).

(** steps left for a thread if nobody changes the queue *)
Definition wt (s : st) (p : pc) : nat :=
  match p with
  | PIdle _ => 0 | PAlloc _ _ => 4 | PTail _ _ => 3
  | PNext _ _ b => if tail s =? b then 2 else 6
  | PLink _ _ b => if nxt s b =? 0 then 1 else 5
  | PHelp _ _ b _ => if tail s =? b then 1 else 5
  | PSwing _ _ _ => 2
  | DHead _ => 3
  | DNext _ h => if head s =? h then 2 else 6
  | DSwing _ h _ => if head s =? h then 1 else 5
  | DTail _ _ _ => 5 | DFix _ _ _ => 4 | DRetire _ _ _ => 3 | DRead _ _ => 2 | PRet _ _ => 1
  end.
(** operations that have not taken effect *)
Definition pn (p : pc) : nat :=
  match p with
  | PAlloc _ _ | PTail _ _ | PNext _ _ _ | PLink _ _ _ | PHelp _ _ _ _ | DHead _ | DNext _ _ | DSwing _ _ _ => 1
  | _ => 0
  end.
Definition lag (s : st) : nat := if nxt s (tail s) =? 0 then 0 else 1.
Definition sumw (s : st) (l : list nat) : nat := list_sum (map (fun u => wt s (pcs s u)) l).
Definition sump (s : st) (l : list nat) : nat := list_sum (map (fun u => pn (pcs s u)) l).
Definition meas (s : st) (l : list nat) : nat :=
  let k := 6 * length l + 1 in sump s l * (2 * k) + lag s * k + sumw s l.

Lemma wt_le s p : wt s p <= 6.
Proof. destruct p; cbn [wt]; repeat match goal with |- context [if ?b then _ else _] => destruct b end; lia. Qed.
Lemma lag_le s : lag s <= 1.
Proof. unfold lag. destruct (nxt s (tail s) =? 0); lia. Qed.
Lemma sumw_le s l : sumw s l <= 6 * length l.
Proof.
  unfold sumw. induction l as [|u l IH]; cbn [map list_sum fold_right length]; [lia|]. pose proof (wt_le s (pcs s u)). unfold list_sum in IH. lia.
Qed.
Lemma sump_le s l : sump s l <= length l.
Proof.
  unfold sump. induction l as [|u l IH]; cbn [map list_sum fold_right length]; [lia|]. assert (pn (pcs s u) <= 1) by (destruct (pcs s u); cbn; lia). unfold list_sum in IH. lia.
Qed.
Lemma meas_le s l : meas s l <= (2 * length l + 2) * (6 * length l + 1).
Proof. unfold meas. pose proof (sumw_le s l). pose proof (sump_le s l). pose proof (lag_le s). nia. Qed.

Lemma sum_upd (f g : nat -> nat) t l : NoDup l -> In t l -> (forall u, u <> t -> f u = g u) ->
  list_sum (map f l) + g t = list_sum (map g l) + f t.
Proof.
  intros D I E. induction D as [|u l N D IH]; [destruct I|]. cbn [map list_sum fold_right]. unfold list_sum in *. destruct I as [->|I].
  - assert (X : map f l = map g l) by (apply map_ext_in; intros u U; apply E; intros ->; contradiction). rewrite X. lia.
  - specialize (IH I). rewrite (E u) by (intros ->; contradiction). lia.
Qed.

(** nothing another thread looks at changes: the sum changes by the thread's own part *)
Lemma meas_own s s' t l : NoDup l -> In t l ->
  (forall u, u <> t -> pcs s' u = pcs s u) -> (forall u, u <> t -> wt s' (pcs s u) = wt s (pcs s u)) ->
  lag s' <= lag s -> pn (pcs s' t) <= pn (pcs s t) -> wt s' (pcs s' t) < wt s (pcs s t) -> meas s' l < meas s l.
Proof.
  intros D I E W L P Q. unfold meas.
  assert (X : sumw s' l + wt s (pcs s t) = sumw s l + wt s' (pcs s' t)).
  { unfold sumw. apply (sum_upd (fun u => wt s' (pcs s' u)) (fun u => wt s (pcs s u)) t l D I). intros u N. cbn beta. rewrite (E u N). apply W. exact N. }
  assert (Y : sump s' l + pn (pcs s t) = sump s l + pn (pcs s' t)).
  { unfold sump. apply (sum_upd (fun u => pn (pcs s' u)) (fun u => pn (pcs s u)) t l D I). intros u N. cbn beta. rewrite (E u N). reflexivity. }
  nia.
Qed.
(** an effect on the queue *)
Lemma meas_effect s s' t l : NoDup l -> In t l -> (forall u, u <> t -> pcs s' u = pcs s u) ->
  pn (pcs s t) = 1 -> pn (pcs s' t) = 0 -> meas s' l < meas s l.
Proof.
  intros D I E P P'. unfold meas. pose proof (sumw_le s' l). pose proof (lag_le s').
  assert (Y : sump s' l + pn (pcs s t) = sump s l + pn (pcs s' t)).
  { unfold sump. apply (sum_upd (fun u => pn (pcs s' u)) (fun u => pn (pcs s u)) t l D I). intros u N. cbn beta. rewrite (E u N). reflexivity. }
  nia.
Qed.
(** the tail catches up *)
Lemma meas_tail s s' t l : NoDup l -> In t l -> (forall u, u <> t -> pcs s' u = pcs s u) ->
  pn (pcs s' t) <= pn (pcs s t) -> lag s = 1 -> lag s' = 0 -> meas s' l < meas s l.
Proof.
  intros D I E P L L'. unfold meas. pose proof (sumw_le s' l). rewrite L, L'.
  assert (Y : sump s' l + pn (pcs s t) = sump s l + pn (pcs s' t)).
  { unfold sump. apply (sum_upd (fun u => pn (pcs s' u)) (fun u => pn (pcs s u)) t l D I). intros u N. cbn beta. rewrite (E u N). reflexivity. }
  nia.
Qed.

Definition work (a : act A) : bool := match a with ARun _ | AAlloc _ _ => true | _ => false end.
Definition covers (s : st) (l : list nat) : Prop := NoDup l /\ forall t, pcs s t <> PIdle A -> In t l.

Lemma eqb_ne a b : a <> b -> (a =? b) = false.
Proof. apply Nat.eqb_neq. Qed.

Ltac other := intros u N; cbn [set_pc QueueModel.pcs set_nxt set_head set_tail]; apply fup_other; exact N.
Ltac own_step EP D IL :=
  apply meas_own with (t := _); [exact D|exact IL|other|reflexivity|apply Nat.le_refl|cbn [set_pc QueueModel.pcs]; rewrite fup_same, EP; cbn [pn]; try lia|
                                 cbn [set_pc QueueModel.pcs]; rewrite fup_same, EP; cbn [wt]].

Lemma work_run s c th q t l s' e : Inv s c th q -> covers s l -> run1 A s t = Next A s' e -> meas s' l < meas s l.
Proof.
  intros I (D & CV) R. unfold run1 in R. pose proof (v_th _ _ _ _ _ I t) as T.
  assert (IL : pcs s t <> PIdle A -> In t l) by apply CV.
  destruct (pcs s t) as [|v|n|n b|n b|n b x|n b| |h|h x|h x|h x|h x|x|r] eqn:EP; cbn [tinv] in T; try discriminate R; specialize (IL ltac:(discriminate)).
  - injection R as <- <-. apply (meas_own s _ t); [exact D|exact IL|other|reflexivity|apply Nat.le_refl| |]; cbn [set_pc QueueModel.pcs]; rewrite fup_same, EP; cbn [pn wt]; [lia|].
    cbn [set_pc QueueModel.tail]. rewrite Nat.eqb_refl. lia.
  - destruct (mem b (live s)); [|discriminate R]. injection R as <- <-.
    apply (meas_own s _ t); [exact D|exact IL|other|reflexivity|apply Nat.le_refl| |]; cbn [set_pc QueueModel.pcs]; rewrite fup_same, EP.
    + destruct (nxt s b =? 0); cbn; lia.
    + destruct (nxt s b =? 0) eqn:E; cbn [wt set_pc QueueModel.nxt QueueModel.tail]; rewrite ?E; destruct (tail s =? b); lia.
  - destruct (mem b (live s)); [|discriminate R]. destruct (nxt s b =? 0) eqn:E; injection R as <- <-.
    + apply (meas_effect s _ t); [exact D|exact IL|other|rewrite EP; reflexivity|]. cbn [set_pc QueueModel.pcs]. rewrite fup_same. reflexivity.
    + apply (meas_own s _ t); [exact D|exact IL|other|reflexivity|apply Nat.le_refl| |]; cbn [set_pc QueueModel.pcs]; rewrite fup_same, EP; cbn [pn wt]; rewrite ?E; lia.
  - injection R as <- <-. destruct T as (_ & TB & TN & TZ). unfold cas_tail. destruct (tail s =? b) eqn:E.
    + apply Nat.eqb_eq in E. apply (meas_tail s _ t); [exact D|exact IL|other| | |].
      * cbn [set_pc QueueModel.pcs]. rewrite fup_same, EP. cbn. lia.
      * unfold lag. rewrite E, TN, eqb_ne by exact TZ. reflexivity.
      * unfold lag. cbn [set_pc set_tail QueueModel.nxt QueueModel.tail].
        assert (X : x = last c 0) by (rewrite <- TN, <- E; apply (tail_next _ _ _ _ _ I); congruence). rewrite X.
        rewrite (proj2 (last_in _ _ _ _ _ I)). reflexivity.
    + apply (meas_own s _ t); [exact D|exact IL|other|reflexivity|apply Nat.le_refl| |]; cbn [set_pc QueueModel.pcs]; rewrite fup_same, EP; cbn [pn wt]; rewrite ?E; lia.
  - injection R as <- <-. destruct T as (TB & TN & TZ & _). unfold cas_tail. destruct (tail s =? b) eqn:E.
    + apply Nat.eqb_eq in E. apply (meas_tail s _ t); [exact D|exact IL|other| | |].
      * cbn [set_pc QueueModel.pcs]. rewrite fup_same, EP. cbn. lia.
      * unfold lag. rewrite E, TN, eqb_ne by exact TZ. reflexivity.
      * unfold lag. cbn [set_pc set_tail QueueModel.nxt QueueModel.tail].
        assert (X : n = last c 0) by (rewrite <- TN, <- E; apply (tail_next _ _ _ _ _ I); congruence). rewrite X.
        rewrite (proj2 (last_in _ _ _ _ _ I)). reflexivity.
    + apply (meas_own s _ t); [exact D|exact IL|other|reflexivity|apply Nat.le_refl| |]; cbn [set_pc QueueModel.pcs]; rewrite fup_same, EP; cbn [pn wt]; lia.
  - injection R as <- <-. apply (meas_own s _ t); [exact D|exact IL|other|reflexivity|apply Nat.le_refl| |]; cbn [set_pc QueueModel.pcs]; rewrite fup_same, EP; cbn [pn wt]; [lia|].
    cbn [set_pc QueueModel.head]. rewrite Nat.eqb_refl. lia.
  - destruct (mem h (live s)); [|discriminate R]. injection R as <- <-. destruct (nxt s h =? 0) eqn:E.
    + apply (meas_effect s _ t); [exact D|exact IL|other|rewrite EP; reflexivity|]. cbn [set_pc QueueModel.pcs]. rewrite fup_same. reflexivity.
    + apply (meas_own s _ t); [exact D|exact IL|other|reflexivity|apply Nat.le_refl| |]; cbn [set_pc QueueModel.pcs]; rewrite fup_same, EP; cbn [pn wt]; [lia|].
      cbn [set_pc QueueModel.head]. destruct (head s =? h); lia.
  - destruct (head s =? h) eqn:E; injection R as <- <-.
    + apply (meas_effect s _ t); [exact D|exact IL|other|rewrite EP; reflexivity|]. cbn [set_pc QueueModel.pcs]. rewrite fup_same. reflexivity.
    + apply (meas_own s _ t); [exact D|exact IL|other|reflexivity|apply Nat.le_refl| |]; cbn [set_pc QueueModel.pcs]; rewrite fup_same, EP; cbn [pn wt]; rewrite ?E; lia.
  - injection R as <- <-. apply (meas_own s _ t); [exact D|exact IL|other|reflexivity|apply Nat.le_refl| |]; cbn [set_pc QueueModel.pcs]; rewrite fup_same, EP; destruct (h =? tail s); cbn [pn wt]; lia.
  - injection R as <- <-. destruct T as (TN & TZ & _). unfold cas_tail. destruct (tail s =? h) eqn:E.
    + apply Nat.eqb_eq in E. apply (meas_tail s _ t); [exact D|exact IL|other| | |].
      * cbn [set_pc QueueModel.pcs]. rewrite fup_same, EP. cbn. lia.
      * unfold lag. rewrite E, TN, eqb_ne by exact TZ. reflexivity.
      * unfold lag. cbn [set_pc set_tail QueueModel.nxt QueueModel.tail].
        assert (X : x = last c 0) by (rewrite <- TN, <- E; apply (tail_next _ _ _ _ _ I); congruence). rewrite X.
        rewrite (proj2 (last_in _ _ _ _ _ I)). reflexivity.
    + apply (meas_own s _ t); [exact D|exact IL|other|reflexivity|apply Nat.le_refl| |]; cbn [set_pc QueueModel.pcs]; rewrite fup_same, EP; cbn [pn wt]; lia.
  - destruct (mem h (live s) && _); [|discriminate R]. injection R as <- <-.
    apply (meas_own s _ t); [exact D|exact IL|other|reflexivity|apply Nat.le_refl| |]; cbn [set_pc QueueModel.pcs]; rewrite fup_same, EP; cbn [pn wt]; lia.
  - destruct (mem x (live s)); [|discriminate R]. destruct (dat A s x); [|discriminate R]. injection R as <- <-.
    apply (meas_own s _ t); [exact D|exact IL|other|reflexivity|apply Nat.le_refl| |]; cbn [set_pc QueueModel.pcs]; rewrite fup_same, EP; cbn [pn wt]; lia.
  - injection R as <- <-. apply (meas_own s _ t); [exact D|exact IL|other|reflexivity|apply Nat.le_refl| |]; cbn [set_pc QueueModel.pcs]; rewrite fup_same, EP; cbn [pn wt]; lia.
Qed.

Lemma work_alloc s c th q t l a s' e : Inv s c th q -> covers s l -> step A s t (AAlloc A a) = Next A s' e -> meas s' l < meas s l.
Proof.
  intros I (D & CV) R. cbn [step] in R. destruct (pcs s t) as [|v| | | | | | | | | | | | | ] eqn:EP; try discriminate R.
  destruct ((a =? 0) || mem a (live s)) eqn:M; [discriminate R|]. injection R as <- <-. apply orb_false_iff in M. destruct M as (_ & M). apply mem_out in M.
  assert (IL : In t l) by (apply CV; rewrite EP; discriminate).
  apply (meas_own s _ t); [exact D|exact IL|other| | | |]; cbn [set_pc QueueModel.pcs]; rewrite ?fup_same, ?EP; cbn [pn wt]; try lia.
  - intros u N. pose proof (v_th _ _ _ _ _ I u) as T. destruct (pcs s u) eqn:EU; cbn [wt set_pc QueueModel.tail QueueModel.head QueueModel.nxt]; try reflexivity.
    cbn [tinv] in T. destruct T as (_ & TB & _). rewrite fup_other; [reflexivity|]. intros ->. apply M. exact (holds_live _ _ _ _ _ _ _ I TB).
  - unfold lag. cbn [set_pc QueueModel.tail QueueModel.nxt]. rewrite fup_other; [apply Nat.le_refl|]. intros Q. apply M. rewrite <- Q.
    exact (holds_live _ _ _ _ _ _ _ I (tail_holds _ _ _ _ _ I t)).
Qed.

Definition calls (a : act A) : bool := match a with ACall _ _ => true | _ => false end.

Lemma covers_step s t a l s' e : covers s l -> calls a = false -> step A s t a = Next A s' e -> covers s' l.
Proof.
  intros (D & CV) C R. split; [exact D|]. intros u N. apply CV. intros Q. apply N. clear N.
  assert (X : pcs s' u = pcs s u \/ (u = t /\ pcs s t <> PIdle A)).
  { destruct a as [| |o|a| |a]; cbn [step calls] in *; try discriminate C.
    - destruct (pcs s t), (mem t (pinned A s)); try discriminate R. injection R as <- <-. left. reflexivity.
    - destruct (pcs s t), (mem t (pinned A s)); try discriminate R. injection R as <- <-. left. reflexivity.
    - destruct (pcs s t) eqn:EP; try discriminate R. destruct ((a =? 0) || _); [discriminate R|]. injection R as <- <-. destruct (Nat.eq_dec u t) as [E|E].
      + right. split; [exact E|discriminate].
      + left. cbn [set_pc QueueModel.pcs]. apply fup_other. exact E.
    - destruct (Nat.eq_dec u t) as [E|E].
      + right. split; [exact E|]. intros EP. unfold run1 in R. rewrite EP in R. discriminate R.
      + left. unfold run1 in R. destruct (pcs s t); repeat match type of R with context [if ?b then _ else _] => destruct b | context [match ?b with Some _ => _ | None => _ end] => destruct b end;
          try discriminate R; injection R as <- <-; cbn [set_pc QueueModel.pcs]; rewrite fup_other by exact E; try reflexivity; unfold cas_tail; destruct (_ =? _); reflexivity.
    - destruct (existsb _ _); [|discriminate R]. injection R as <- <-. left. reflexivity. }
  destruct X as [X|(-> & X)]; [rewrite X; exact Q|contradiction].
Qed.

Lemma meas_step s c th q t a l s' e : Inv s c th q -> covers s l -> calls a = false -> step A s t a = Next A s' e ->
  meas s' l + (if work a then 1 else 0) <= meas s l.
Proof.
  intros I CV C R. destruct a as [| |o|a| |a]; cbn [work calls] in *; try discriminate C.
  - cbn [step] in R. destruct (pcs s t), (mem t (pinned A s)); try discriminate R. injection R as <- <-. rewrite Nat.add_0_r. apply Nat.le_refl.
  - cbn [step] in R. destruct (pcs s t), (mem t (pinned A s)); try discriminate R. injection R as <- <-. rewrite Nat.add_0_r. apply Nat.le_refl.
  - pose proof (work_alloc _ _ _ _ _ _ _ _ _ I CV R). lia.
  - cbn [step] in R. pose proof (work_run _ _ _ _ _ _ _ _ I CV R). lia.
  - cbn [step] in R. destruct (existsb _ _); [|discriminate R]. injection R as <- <-. rewrite Nat.add_0_r. apply Nat.le_refl.
Qed.

Lemma call_step s t o l s' e : NoDup l -> In t l -> step A s t (ACall A o) = Next A s' e ->
  meas s' l <= meas s l + (12 * length l + 6).
Proof.
  intros D IL R. cbn [step] in R. destruct (pcs s t) eqn:EP; try discriminate R. destruct (mem t (pinned A s)); [|discriminate R]. injection R as <- <-.
  set (p := match o with OEnq _ v => PAlloc A v | ODeq _ => DHead A end). unfold meas.
  assert (X : sumw (set_pc A s t p) l + 0 = sumw s l + wt (set_pc A s t p) p).
  { unfold sumw. pose proof (sum_upd (fun u => wt (set_pc A s t p) (pcs (set_pc A s t p) u)) (fun u => wt s (pcs s u)) t l D IL) as Q.
    cbn beta in Q. rewrite EP in Q. cbn [wt] in Q. cbn [set_pc QueueModel.pcs] in *. rewrite fup_same in Q. apply Q. intros u N. rewrite fup_other by exact N. reflexivity. }
  assert (Y : sump (set_pc A s t p) l + 0 = sump s l + pn p).
  { unfold sump. pose proof (sum_upd (fun u => pn (pcs (set_pc A s t p) u)) (fun u => pn (pcs s u)) t l D IL) as Q.
    cbn beta in Q. rewrite EP in Q. cbn [pn] in Q. cbn [set_pc QueueModel.pcs] in *. rewrite fup_same in Q. apply Q. intros u N. rewrite fup_other by exact N. reflexivity. }
  assert (L : lag (set_pc A s t p) = lag s) by reflexivity. rewrite L.
  assert (pn p = 1 /\ wt (set_pc A s t p) p <= 4) as (P1 & P2) by (destruct o; cbn; lia). nia.
Qed.
Lemma call_covers s t o l s' e : covers s l -> In t l -> step A s t (ACall A o) = Next A s' e -> covers s' l.
Proof.
  intros (D & CV) IL R. cbn [step] in R. destruct (pcs s t); try discriminate R. destruct (mem t (pinned A s)); [|discriminate R]. injection R as <- <-.
  split; [exact D|]. intros u N. cbn [set_pc QueueModel.pcs] in N. destruct (Nat.eq_dec u t) as [->|E]; [exact IL|]. rewrite fup_other in N by exact E. apply CV. exact N.
Qed.

(** steps taken by operations, and operations called *)
Definition works (sch : list (nat * act A)) : nat := length (filter (fun x => work (snd x)) sch).
Definition ncalls (sch : list (nat * act A)) : nat := length (filter (fun x => calls (snd x)) sch).

Lemma meas_sched sch : forall s c th q l s' e, Inv s c th q -> covers s l -> (forall t a, In (t, a) sch -> In t l) -> run A s sch = Next A s' e ->
  works sch + meas s' l <= meas s l + ncalls sch * (12 * length l + 6).
Proof.
  induction sch as [|(t, a) sch IH]; intros s c th q l s' e I CV TL R; cbn [run] in R.
  - injection R as <- <-. cbn. lia.
  - destruct (step A s t a) as [| |s1 e1] eqn:S; try discriminate R. destruct (run A s1 sch) as [| |s2 e2] eqn:R2; try discriminate R. injection R as <- <-.
    pose proof (sim_step A s c th q t a I) as SI. rewrite S in SI. destruct SI as (c1 & th1 & q1 & f1 & _ & I1).
    assert (TL' : forall u b, In (u, b) sch -> In u l) by (intros u b U; apply (TL u b); right; exact U).
    assert (IT : In t l) by (apply (TL t a); left; reflexivity).
    unfold works, ncalls in *. cbn [filter snd]. destruct (calls a) eqn:Ca.
    + destruct a; try discriminate Ca. pose proof (IH s1 c1 th1 q1 l s2 e2 I1 (call_covers _ _ _ _ _ _ CV IT S) TL' R2) as M2.
      pose proof (call_step _ _ _ _ _ _ (proj1 CV) IT S). cbn [work length]. lia.
    + pose proof (meas_step _ _ _ _ _ _ _ _ _ I CV Ca S) as M1.
      pose proof (IH s1 c1 th1 q1 l s2 e2 I1 (covers_step _ _ _ _ _ _ CV Ca S) TL' R2) as M2. destruct (work a); cbn [length]; lia.
Qed.

(** no thread is ever blocked *)
Lemma fresh_exists (l : list nat) : exists a, a <> 0 /\ ~ In a l.
Proof.
  exists (S (list_sum l)). split; [discriminate|]. intros X.
  assert (B : forall x, In x l -> x <= list_sum l).
  { clear. unfold list_sum. induction l as [|y l IH]; intros x X; [destruct X|]. cbn [fold_right]. destruct X as [->|X]; [lia|]. specialize (IH x X). lia. }
  specialize (B _ X). lia.
Qed.
Lemma enabled s c th q t : Inv s c th q -> pcs s t <> PIdle A -> exists a s' e, work a = true /\ step A s t a = Next A s' e.
Proof.
  intros I N. destruct (pcs s t) as [|v| | | | | | | | | | | | | ] eqn:EP; [contradiction| | | | | | | | | | | | | | ];
    try (exists (ARun A); pose proof (sim_step A s c th q t (ARun A) I) as S; cbn [step] in *; destruct (run1 A s t) as [| |s' e] eqn:R;
         [exfalso; unfold run1 in R; rewrite EP in R; repeat match type of R with context [if ?b then _ else _] => destruct b | context [match ?b with Some _ => _ | None => _ end] => destruct b end; discriminate R
         |destruct S|exists s', e; auto]).
  destruct (fresh_exists (live s)) as (a & A0 & NA). exists (AAlloc A a). cbn [step work]. rewrite EP.
  apply Nat.eqb_neq in A0. rewrite A0, (proj2 (mem_out _ _) NA). cbn [orb]. eauto.
Qed.
End Live.
