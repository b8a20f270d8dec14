(** Programs that take their locks in one order always finish. *)
From Coq Require Import List Arith Bool Lia.
From Verif Require Import LockModel.
Import ListNotations.

Lemma lock_eqb_eq a b : lock_eqb a b = true <-> a = b.
Proof.
  split.
  - destruct a, b; cbn; intros E; try discriminate E; try reflexivity; try (apply Nat.eqb_eq in E; congruence).
    apply andb_true_iff in E. destruct E as (A & B). apply Nat.eqb_eq in A, B. congruence.
  - intros ->. destruct b; cbn; rewrite ?Nat.eqb_refl; reflexivity.
Qed.
Lemma lock_eqb_neq a b : lock_eqb a b = false <-> a <> b.
Proof. rewrite <- lock_eqb_eq. destruct (lock_eqb a b); split; congruence. Qed.
Lemma lock_dec (a b : lock) : {a = b} + {a <> b}.
Proof. destruct (lock_eqb a b) eqn:E; [left; apply lock_eqb_eq | right; apply lock_eqb_neq]; exact E. Qed.

Lemma nth_set_same {A} (x : A) : forall i l y, nth_error l i = Some y -> nth_error (set_nth i x l) i = Some x.
Proof. induction i; intros [|a l] y E; try discriminate E; cbn in *; [reflexivity|exact (IHi _ _ E)]. Qed.
Lemma nth_set_other {A} (x : A) : forall i j l, i <> j -> nth_error (set_nth i x l) j = nth_error l j.
Proof. induction i; intros [|j] [|a l] N; cbn; try reflexivity; try lia. apply IHi. lia. Qed.

(** * Order *)
Section Ranked.
Variable rank : lock -> nat.

(** a program in order, from what is held: a lock is taken only above all that are held, upgraded only if
    it is the highest, and in the end nothing is held *)
Fixpoint ordered (h : list (lock * mode)) (p : list instr) : Prop :=
  match p with
  | [] => h = []
  | Acq l m :: r => (forall l' m', In (l', m') h -> rank l' < rank l) /\ ordered ((l, m) :: h) r
  | Up l :: r => In (l, MU) h /\ (forall l' m', In (l', m') h -> l' <> l -> rank l' < rank l) /\ ordered (set_mode l MW h) r
  | Down l :: r => ordered (set_mode l MR h) r
  | Rel l :: r => ordered (remove l h) r
  end.

Definition well (t : thread) : Prop := ordered (th_held t) (th_prog t) /\ NoDup (map fst (th_held t)).

Definition exclusive (c : config) : Prop :=
  forall i j s t l m m', i <> j -> nth_error c i = Some s -> nth_error c j = Some t ->
  In (l, m) (th_held s) -> In (l, m') (th_held t) -> compatible m m' = true.

Definition good (c : config) : Prop := Forall well c /\ exclusive c.

Lemma compat_sym a b : compatible a b = compatible b a.
Proof. destruct a, b; reflexivity. Qed.

Lemma in_set_mode l m h x y : In (x, y) (set_mode l m h) -> (x = l /\ y = m /\ exists y', In (l, y') h) \/ (x <> l /\ In (x, y) h).
Proof.
  unfold set_mode. intros I. apply in_map_iff in I. destruct I as ([a b] & E & I). cbn [fst] in E. destruct (lock_eqb a l) eqn:Q.
  - left. injection E as <- <-. apply lock_eqb_eq in Q. subst a. split; [reflexivity|]. split; [reflexivity|]. exists b. exact I.
  - right. injection E as <- <-. apply lock_eqb_neq in Q. auto.
Qed.
Lemma in_remove l h x y : In (x, y) (remove l h) -> In (x, y) h.
Proof. unfold remove. intros I. apply filter_In in I. exact (proj1 I). Qed.
Lemma set_mode_keys l m h : map fst (set_mode l m h) = map fst h.
Proof.
  unfold set_mode. rewrite map_map. apply map_ext. intros [a b]. cbn. destruct (lock_eqb a l) eqn:Q; [|reflexivity].
  apply lock_eqb_eq in Q. subst. reflexivity.
Qed.
Lemma remove_nodup l h : NoDup (map fst h) -> NoDup (map fst (remove l h)).
Proof.
  induction h as [|[a b] h IH]; [auto|]. cbn [map fst remove filter]. intros N. inversion N as [|? ? A B]; subst.
  destruct (negb (lock_eqb a l)); [|exact (IH B)]. cbn [map fst]. constructor; [|exact (IH B)].
  intros I. apply A. apply in_map_iff in I. destruct I as ([u v] & E & I). cbn in E. subst u. apply in_map_iff. exists (a, v). split; [reflexivity|].
  exact (in_remove _ _ _ _ I).
Qed.

Lemma advance_well t : th_prog t <> [] -> well t -> well (advance t).
Proof.
  intros P (O & N). destruct t as [[|[l m|l|l|l] p] h]; cbn [th_prog th_held advance] in *; [destruct (P eq_refl)| | | |]; cbn [ordered] in O.
  - destruct O as (A & O). split; [exact O|]. cbn [th_held map fst]. constructor; [|exact N].
    intros I. apply in_map_iff in I. destruct I as ([u v] & E & I). cbn in E. subst u. pose proof (A _ _ I). lia.
  - destruct O as (_ & _ & O). split; [exact O|]. cbn [th_held]. rewrite set_mode_keys. exact N.
  - split; [exact O|]. cbn [th_held]. rewrite set_mode_keys. exact N.
  - split; [exact O|]. cbn [th_held]. apply remove_nodup. exact N.
Qed.

(** what the thread that moved holds is compatible with what the others hold *)
Lemma advance_compat c i t : exclusive c -> nth_error c i = Some t -> ready c i t ->
  forall j o l m m', i <> j -> nth_error c j = Some o -> In (l, m) (th_held (advance t)) -> In (l, m') (th_held o) -> compatible m m' = true.
Proof.
  intros X T R j o l m m' N O I J. assert (OLD : In (l, m) (th_held t) -> compatible m m' = true) by (intros Q; exact (X i j t o l m m' N T O Q J)).
  assert (NC : forall l0 m0, ~ conflict c i l0 m0 -> In (l0, m') (th_held o) -> compatible m0 m' = true).
  { intros l0 m0 C Q. destruct (compatible m0 m') eqn:E; [reflexivity|]. destruct C. exists j, o, m'. repeat split; auto. }
  destruct t as [[|[l0 m0|l0|l0|l0] p] h]; cbn [th_prog th_held advance ready] in *.
  - exact (OLD I).
  - destruct I as [I|I]; [|exact (OLD I)]. injection I as -> ->. exact (NC _ _ R J).
  - apply in_set_mode in I. destruct I as [(-> & -> & _)|(Q & I)]; [exact (NC _ _ R J)|exact (OLD I)].
  - apply in_set_mode in I. destruct I as [(-> & -> & y & I)|(Q & I)]; [|exact (OLD I)].
    pose proof (X i j _ o l0 y m' N T O I J) as K. destruct y, m'; try discriminate K; reflexivity.
  - apply in_remove in I. exact (OLD I).
Qed.

Lemma Forall_set_nth {A} (P : A -> Prop) x : forall i l, Forall P l -> P x -> Forall P (set_nth i x l).
Proof. induction i; intros [|a l] F X; cbn; auto; inversion F; subst; constructor; auto. Qed.

Lemma ready_prog c i t : ready c i t -> th_prog t <> [].
Proof. unfold ready. destruct (th_prog t); [intros []|intros _ E; discriminate E]. Qed.

Lemma step_good c c' : good c -> step c c' -> good c'.
Proof.
  intros (W & X) S. destruct S as [c i t T R]. split.
  - apply Forall_set_nth; [exact W|]. apply advance_well; [exact (ready_prog _ _ _ R)|]. rewrite Forall_forall in W. exact (W _ (nth_error_In _ _ T)).
  - intros a b s u l m m' N A B I J.
    destruct (Nat.eq_dec i a) as [Ea|Na]; destruct (Nat.eq_dec i b) as [Eb|Nb]; try lia.
    + subst i. rewrite (nth_set_same _ _ _ _ T) in A. injection A as <-. rewrite nth_set_other in B by exact Nb.
      exact (advance_compat c a t X T R b u l m m' N B I J).
    + subst i. rewrite (nth_set_same _ _ _ _ T) in B. injection B as <-. rewrite nth_set_other in A by exact Na.
      rewrite compat_sym. exact (advance_compat c b t X T R a s l m' m (not_eq_sym N) A J I).
    + rewrite nth_set_other in A, B by assumption. exact (X a b s u l m m' N A B I J).
Qed.

(** * Someone can go on *)
(** even if a reader has to queue behind a writer that waits *)
Definition wants (t : thread) (l : lock) : Prop := match th_prog t with Acq l' MW :: _ => l' = l | Up l' :: _ => l' = l | _ => False end.
Definition unhindered (c : config) (i : nat) (t : thread) : Prop :=
  ready c i t /\
  match th_prog t with
  | Acq l (MR | MU) :: _ => ~ exists j o, j <> i /\ nth_error c j = Some o /\ wants o l
  | _ => True
  end.

Definition level (t : thread) : nat :=
  match th_prog t with Acq l _ :: _ => 2 * rank l | Up l :: _ => 2 * rank l + 1 | _ => 0 end.

Lemma ex_index {A} (P : nat -> A -> Prop) (D : forall i x, {P i x} + {~ P i x}) : forall (c : list A) (k : nat),
  {exists j t, nth_error c j = Some t /\ P (k + j) t} + {forall j t, nth_error c j = Some t -> ~ P (k + j) t}.
Proof.
  induction c as [|a c IH]; intros k.
  - right. intros j t E. destruct j; discriminate E.
  - destruct (D k a) as [Y|N].
    + left. exists 0, a. split; [reflexivity|]. rewrite Nat.add_0_r. exact Y.
    + destruct (IH (S k)) as [Y|N'].
      * left. destruct Y as (j & t & E & Q). exists (S j), t. split; [exact E|]. rewrite Nat.add_succ_r. exact Q.
      * right. intros [|j] t E; cbn in E.
        -- injection E as <-. rewrite Nat.add_0_r. exact N.
        -- rewrite Nat.add_succ_r. exact (N' j t E).
Defined.

Lemma conflict_dec c i l m : {conflict c i l m} + {~ conflict c i l m}.
Proof.
  destruct (ex_index (fun j t => j <> i /\ existsb (fun x => lock_eqb (fst x) l && negb (compatible m (snd x))) (th_held t) = true)
    (fun j t => match Nat.eq_dec j i with left E => right (fun Q => proj1 Q E) | right N =>
       match bool_dec (existsb (fun x => lock_eqb (fst x) l && negb (compatible m (snd x))) (th_held t)) true with
       | left E => left (conj N E) | right F => right (fun Q => F (proj2 Q)) end end) c 0) as [Y|N].
  - left. destruct Y as (j & t & E & Nj & Q). apply existsb_exists in Q. destruct Q as ([a b] & I & Q). cbn [fst snd] in Q.
    apply andb_true_iff in Q. destruct Q as (Q & K). apply lock_eqb_eq in Q. subst a. apply negb_true_iff in K.
    exists j, t, b. auto.
  - right. intros (j & t & m' & Nj & E & I & K). apply (N j t E). split; [exact Nj|]. apply existsb_exists. exists (l, m'). split; [exact I|].
    cbn [fst snd]. rewrite K, (proj2 (lock_eqb_eq l l) eq_refl). reflexivity.
Qed.

Lemma wants_dec t l : {wants t l} + {~ wants t l}.
Proof. unfold wants. destruct (th_prog t) as [|[l' []|l'|l'|l'] p]; try (right; intros []; fail); apply lock_dec. Qed.

Lemma waiting_dec c i l : {exists j o, j <> i /\ nth_error c j = Some o /\ wants o l} + {~ exists j o, j <> i /\ nth_error c j = Some o /\ wants o l}.
Proof.
  destruct (ex_index (fun j t => j <> i /\ wants t l)
    (fun j t => match Nat.eq_dec j i with left E => right (fun Q => proj1 Q E) | right N =>
       match wants_dec t l with left E => left (conj N E) | right F => right (fun Q => F (proj2 Q)) end end) c 0) as [Y|N].
  - left. destruct Y as (j & t & E & A & B). exists j, t. auto.
  - right. intros (j & o & A & E & B). exact (N j o E (conj A B)).
Qed.

Lemma unhindered_dec c i t : {unhindered c i t} + {~ unhindered c i t}.
Proof.
  unfold unhindered, ready. destruct (th_prog t) as [|[l m|l|l|l] p].
  - right. intros ([] & _).
  - destruct (conflict_dec c i l m) as [Y|N]; [right; intros (Q & _); exact (Q Y)|]. destruct m.
    + destruct (waiting_dec c i l) as [Y|N']; [right; intros (_ & Q); exact (Q Y)|left; auto].
    + destruct (waiting_dec c i l) as [Y|N']; [right; intros (_ & Q); exact (Q Y)|left; auto].
    + left. auto.
  - destruct (conflict_dec c i l MW) as [Y|N]; [right; intros (Q & _); exact (Q Y)|left; auto].
  - left. auto.
  - left. auto.
Qed.

Lemma nodup_mode (h : list (lock * mode)) l m m' : NoDup (map fst h) -> In (l, m) h -> In (l, m') h -> m = m'.
Proof.
  induction h as [|[a b] h IH]; intros N I J; [destruct I|]. cbn [map fst] in N. inversion N as [|? ? A B]; subst.
  destruct I as [I|I]; destruct J as [J|J].
  - congruence.
  - injection I as -> ->. destruct A. apply in_map_iff. exists (l, m'). auto.
  - injection J as -> ->. destruct A. apply in_map_iff. exists (l, m). auto.
  - exact (IH B I J).
Qed.

(** a thread in the way of one that waits for [l] waits for something higher *)
Lemma holder_higher c i t l m : good c -> nth_error c i = Some t ->
  (th_prog t <> [] /\ match th_prog t with Acq l' m' :: _ => l' = l /\ m' = m | Up l' :: _ => l' = l /\ m = MW | _ => False end) ->
  conflict c i l m -> exists j o, nth_error c j = Some o /\ th_prog o <> [] /\ (level t < level o \/ unhindered c j o).
Proof.
  intros (W & X) T (P & H) (j & o & m' & N & O & I & K). exists j, o.
  assert (WO : well o) by (rewrite Forall_forall in W; exact (W _ (nth_error_In _ _ O))).
  assert (WT : well t) by (rewrite Forall_forall in W; exact (W _ (nth_error_In _ _ T))).
  destruct WO as (OO & ON). destruct WT as (OT & TN).
  assert (L : level t <= 2 * rank l + 1 /\ (level t = 2 * rank l \/ exists p, th_prog t = Up l :: p)).
  { unfold level. destruct (th_prog t) as [|[l' m0|l'|l'|l'] p]; try (destruct H; fail); destruct H as (-> & _).
    - split; [lia|left; reflexivity].
    - split; [lia|right; exists p; reflexivity]. }
  destruct o as [[|[l2 m2|l2|l2|l2] p2] h]; cbn [th_prog th_held] in *.
  - cbn in OO. subst h. destruct I.
  - split; [exact O|]. split; [discriminate|]. left. cbn [ordered] in OO. destruct OO as (A & _). pose proof (A _ _ I).
    unfold level at 2. cbn [th_prog]. lia.
  - split; [exact O|]. split; [discriminate|]. left. cbn [ordered] in OO. destruct OO as (U & A & _). unfold level at 2. cbn [th_prog].
    destruct (lock_dec l l2) as [<-|Q].
    + destruct L as (L1 & [L2|(p & L2)]); [lia|]. exfalso. rewrite L2 in OT. cbn [ordered] in OT. destruct OT as (UT & _).
      pose proof (X i j t _ l MU MU (not_eq_sym N) T O UT U) as Z. discriminate Z.
    + pose proof (A _ _ I Q). lia.
  - split; [exact O|]. split; [discriminate|]. right. split; exact Logic.I.
  - split; [exact O|]. split; [discriminate|]. right. split; exact Logic.I.
Qed.

Lemma max_level (c : config) : (exists i t, nth_error c i = Some t /\ th_prog t <> []) ->
  exists i t, nth_error c i = Some t /\ th_prog t <> [] /\ forall j o, nth_error c j = Some o -> th_prog o <> [] -> level o <= level t.
Proof.
  induction c as [|a c IH]; intros (i & t & E & P); [destruct i; discriminate E|].
  assert (D : (exists i t, nth_error c i = Some t /\ th_prog t <> []) \/ (forall i t, nth_error c i = Some t -> th_prog t = [])).
  { clear. induction c as [|b c IH]; [right; intros [|i] t E; discriminate E|]. destruct (th_prog b) eqn:B.
    - destruct IH as [(i & t & E & P)|A]; [left; exists (S i), t; auto|]. right. intros [|i] t E; cbn in E; [injection E as <-; exact B|exact (A _ _ E)].
    - left. exists 0, b. split; [reflexivity|]. rewrite B. discriminate. }
  destruct D as [Y|N].
  - destruct (IH Y) as (k & u & EU & PU & M). destruct (th_prog a) eqn:A.
    + exists (S k), u. repeat split; auto. intros [|j] o EO PO; cbn in EO; [injection EO as <-; congruence|exact (M _ _ EO PO)].
    + destruct (le_lt_dec (level a) (level u)) as [L|L].
      * exists (S k), u. repeat split; auto. intros [|j] o EO PO; cbn in EO; [injection EO as <-; exact L|exact (M _ _ EO PO)].
      * exists 0, a. split; [reflexivity|]. split; [rewrite A; discriminate|]. intros [|j] o EO PO; cbn in EO; [injection EO as <-; lia|].
        pose proof (M _ _ EO PO). lia.
  - destruct i as [|i]; cbn in E; [|rewrite (N _ _ E) in P; destruct (P eq_refl)]. injection E as <-.
    exists 0, a. repeat split; auto. intros [|j] o EO PO; cbn in EO; [injection EO as <-; lia|]. rewrite (N _ _ EO) in PO. destruct (PO eq_refl).
Qed.

Lemma progress c : good c -> (exists i t, nth_error c i = Some t /\ th_prog t <> []) ->
  exists i t, nth_error c i = Some t /\ unhindered c i t.
Proof.
  intros G E. destruct (ex_index (unhindered c) (unhindered_dec c) c 0) as [Y|N].
  { destruct Y as (i & t & A & B). exists i, t. auto. }
  exfalso. cbn [Nat.add] in N. destruct (max_level c E) as (i & t & T & P & M).
  assert (HC : forall i t l m, nth_error c i = Some t -> (forall j o, nth_error c j = Some o -> th_prog o <> [] -> level o <= level t) ->
    (th_prog t <> [] /\ match th_prog t with Acq l' m' :: _ => l' = l /\ m' = m | Up l' :: _ => l' = l /\ m = MW | _ => False end) ->
    ~ conflict c i l m).
  { intros i' t' l m T' M' H C. destruct (holder_higher c i' t' l m G T' H C) as (j & o & O & PO & [L|U]).
    - pose proof (M' _ _ O PO). lia.
    - exact (N j o O U). }
  apply (N i t T). unfold unhindered, ready. pose proof (HC i t) as H. destruct t as [[|[l m|l|l|l] p] h]; cbn [th_prog] in *.
  - destruct (P eq_refl).
  - assert (NC : ~ conflict c i l m) by (apply H; auto). split; [exact NC|].
    assert (NW : ~ exists j o, j <> i /\ nth_error c j = Some o /\ wants o l).
    { intros (j & o & Nj & O & Wa). destruct o as [[|[l' m'|l'|l'|l'] p'] h']; unfold wants in Wa; cbn [th_prog] in Wa; try (destruct Wa; fail).
      - destruct m'; try (destruct Wa; fail). subst l'. apply (N j _ O). split; [|exact Logic.I]. cbn [ready th_prog].
        apply (HC j (MkThread (Acq l MW :: p') h') l MW O).
        + intros j' o' O' P'. pose proof (M j' o' O' P') as Q. unfold level at 2 in Q. unfold level at 2. cbn [th_prog] in *. exact Q.
        + cbn [th_prog]. split; [discriminate|auto].
      - subst l'. pose proof (M j _ O ltac:(discriminate)) as Q. unfold level in Q. cbn [th_prog] in Q. lia. }
    destruct m; auto.
  - split; [|exact Logic.I]. apply H; auto.
  - split; exact Logic.I.
  - split; exact Logic.I.
Qed.

(** * Everybody finishes *)
Definition all_done (c : config) : Prop := forall t, In t c -> th_prog t = [].

Definition work (c : config) : nat := list_sum (map (fun t => length (th_prog t)) c).

Lemma work_set i t' : forall c t, nth_error c i = Some t -> length (th_prog t') < length (th_prog t) -> work (set_nth i t' c) < work c.
Proof.
  unfold work, list_sum. induction i; intros [|a c] t E L; try discriminate E; cbn in E |- *.
  - injection E as <-. lia.
  - pose proof (IHi _ _ E L). lia.
Qed.

Lemma step_work c c' : step c c' -> work c' < work c.
Proof.
  intros [c0 i t T R]. apply (work_set i _ _ t T). destruct t as [[|[] p] h]; cbn [th_prog advance length] in *; try lia. destruct R.
Qed.
End Ranked.

(** whatever the schedule: not everything waits before everything is done, and the end is reached. In
    every state some statement can go on even if readers queue behind waiting writers. *)
Inductive finishes (c : config) : Prop :=
| Finishes :
    (all_done c \/ exists i t, nth_error c i = Some t /\ unhindered c i t) ->
    (forall c', step c c' -> finishes c') -> finishes c.

Lemma done_dec (c : config) : all_done c \/ exists i t, nth_error c i = Some t /\ th_prog t <> [].
Proof.
  induction c as [|a c IH]; [left; intros t []|]. destruct (th_prog a) eqn:A.
  - destruct IH as [D|(i & t & E & P)]; [left|right; exists (S i), t; auto]. intros t [<-|I]; [exact A|exact (D t I)].
  - right. exists 0, a. split; [reflexivity|]. rewrite A. discriminate.
Qed.

Lemma good_finishes rank : forall n c, work c <= n -> good rank c -> finishes c.
Proof.
  induction n as [n IH] using lt_wf_ind. intros c L G. constructor.
  - destruct (done_dec c) as [D|E]; [left; exact D|]. right. exact (progress rank c G E).
  - intros c' S. pose proof (step_work c c' S). apply (IH (work c')); [lia|lia|]. exact (step_good rank c c' G S).
Qed.

Lemma start_good rank ss : (forall s, In s ss -> ordered rank [] (locks s)) -> good rank (start ss).
Proof.
  intros A. split.
  - apply Forall_forall. intros t I. apply in_map_iff in I. destruct I as (s & <- & I). split; [exact (A s I)|]. constructor.
  - intros i j s t l m m' N E F I J. apply nth_error_In in E. apply in_map_iff in E. destruct E as (x & <- & _). destruct I.
Qed.
