(** C56: statements that run at the same time and their locks. *)
From Coq Require Import List Arith Bool Lia.
From Verif Require Import LockModel LockProofs.
Import ListNotations.

(** * Two orders *)
Definition rank1 (l : lock) : nat :=
  match l with LSpaces => 0 | LModels => 1 | LUsers => 2 | LGns => 3 | LBatch _ => 4 | LLatch _ => 5 | LRow _ => 6 | LList d _ => 7 + d end.
Definition rank2 (l : lock) : nat := match l with LSpaces => 1 | LModels => 0 | l => rank1 l end.

(** statements that lock the models while they hold the spaces *)
Definition models_after_spaces (s : stmt) : bool :=
  match s with
  | SDropSpaceForced _ _ => true (* DROP SPACE ALLOW NOT EMPTY *)
  | SCreateModel true true true => true (* CREATE MODEL that succeeds *)
  | SDropModel true _ _ => true (* DROP MODEL of a model that exists *)
  | _ => false
  end.
(** statements that lock the spaces while they hold the models *)
Definition spaces_after_models (s : stmt) : bool :=
  match s with
  | SAlterModel true _ _ => true (* ALTER MODEL of a model that exists *)
  | _ => false
  end.

(** * Programs are in order *)
Section Rank.
Variable rank : lock -> nat.
Definition under (n : nat) (h : list (lock * mode)) : Prop := forall l m, In (l, m) h -> rank l < n.

Lemma under_out n h l : under n h -> n <= rank l -> forall m, ~ In (l, m) h.
Proof. intros U L m I. pose proof (U _ _ I). lia. Qed.

Lemma remove_out l h : (forall m, ~ In (l, m) h) -> remove l h = h.
Proof.
  induction h as [|[a b] h IH]; intros N; [reflexivity|]. cbn [remove filter fst]. destruct (lock_eqb a l) eqn:E.
  - apply lock_eqb_eq in E. subst a. destruct (N b). left. reflexivity.
  - cbn [negb]. f_equal. apply IH. intros m I. apply (N m). right. exact I.
Qed.
Lemma remove_top l m h : (forall m, ~ In (l, m) h) -> remove l ((l, m) :: h) = h.
Proof.
  intros N. cbn [remove filter fst]. rewrite (proj2 (lock_eqb_eq l l) eq_refl). cbn [negb]. apply remove_out. exact N.
Qed.
Lemma set_mode_out l m h : (forall m, ~ In (l, m) h) -> set_mode l m h = h.
Proof.
  induction h as [|[a b] h IH]; intros N; [reflexivity|]. cbn [set_mode map fst]. destruct (lock_eqb a l) eqn:E.
  - apply lock_eqb_eq in E. subst a. destruct (N b). left. reflexivity.
  - f_equal. apply IH. intros m' I. apply (N m'). right. exact I.
Qed.
Lemma set_mode_top l m m' h : (forall m, ~ In (l, m) h) -> set_mode l m ((l, m') :: h) = (l, m) :: h.
Proof.
  intros N. cbn [set_mode map fst]. rewrite (proj2 (lock_eqb_eq l l) eq_refl). f_equal. apply set_mode_out. exact N.
Qed.

Lemma under_cons n h l m : under (rank l) h -> rank l < n -> under n ((l, m) :: h).
Proof. intros U L l' m' [E|I]; [injection E as -> ->; exact L|]. pose proof (U _ _ I). lia. Qed.

(** a section: take a lock above what is held, do something above it, release it *)
Lemma ordered_section l m body h q : under (rank l) h ->
  (forall q', ordered rank ((l, m) :: h) q' -> ordered rank ((l, m) :: h) (body ++ q')) ->
  ordered rank h q -> ordered rank h (Acq l m :: body ++ Rel l :: q).
Proof.
  intros U B Q. cbn [ordered]. split; [exact U|]. apply B. cbn [ordered]. rewrite remove_top; [exact Q|].
  exact (under_out _ _ _ U (le_n _)).
Qed.

Lemma ordered_flat {A} (f : A -> list instr) h l :
  (forall a, In a l -> forall q, ordered rank h q -> ordered rank h (f a ++ q)) ->
  forall q, ordered rank h q -> ordered rank h (flat_map f l ++ q).
Proof.
  intros F. induction l as [|a l IH]; intros q Q; [exact Q|]. cbn [flat_map]. rewrite <- app_assoc.
  apply F; [left; reflexivity|]. apply IH; [|exact Q]. intros b I. apply F. right. exact I.
Qed.

Hypothesis rank_high : rank LGns = 3 /\ rank LUsers = 2 /\ (forall m, rank (LBatch m) = 4) /\ (forall m, rank (LLatch m) = 5) /\
  (forall r, rank (LRow r) = 6) /\ (forall d i, rank (LList d i) = 7 + d) /\ rank LSpaces < 2 /\ rank LModels < 2.

Lemma under_le n n' h : under n h -> n <= n' -> under n' h.
Proof. intros U L l m I. pose proof (U _ _ I). lia. Qed.

Lemma gns_ordered ok h q : under 3 h -> ordered rank h q -> ordered rank h (gns_ctx ok ++ q).
Proof.
  intros U Q. destruct ok; [|exact Q]. unfold gns_ctx.
  change ([Acq LGns MW; Rel LGns] ++ q) with (Acq LGns MW :: [] ++ Rel LGns :: q).
  apply ordered_section; [rewrite (proj1 rank_high); exact U|auto|exact Q].
Qed.

Fixpoint lread_ordered (d : nat) (t : ltree) {struct t} : forall h q, under (7 + d) h -> ordered rank h q -> ordered rank h (lread d t ++ q).
Proof.
  destruct t as [i ts]. intros h q U Q. cbn [lread app]. rewrite <- app_assoc. cbn [app].
  destruct rank_high as (_ & _ & _ & _ & _ & RL & _).
  apply ordered_section; [rewrite RL; exact U| |exact Q].
  assert (U' : under (7 + S d) ((LList d i, MR) :: h)) by (apply under_cons; rewrite RL; [exact U|lia]).
  clear Q q. induction ts as [|a ts IH]; intros q' Q'; [exact Q'|]. rewrite <- app_assoc. apply lread_ordered; [exact U'|]. apply IH. exact Q'.
Qed.

Lemma lreads_ordered d l h q : under (7 + d) h -> ordered rank h q -> ordered rank h (lreads d l ++ q).
Proof. intros U Q. apply ordered_flat; [|exact Q]. intros a _ q' Q'. apply lread_ordered; assumption. Qed.

Lemma row_ordered v h q : under 6 h -> ordered rank h q -> ordered rank h (row_read v ++ q).
Proof.
  intros U Q. destruct v as [r up ls]. unfold row_read. cbn [v_row v_up v_lists].
  destruct rank_high as (_ & _ & _ & _ & RR & _).
  assert (N : forall m, ~ In (LRow r, m) h) by (apply (under_out 6); [exact U|rewrite RR; lia]).
  assert (R : ordered rank ((LRow r, MR) :: h) (lreads 0 ls ++ [Rel (LRow r)] ++ q)).
  { apply lreads_ordered.
    - apply under_cons; rewrite RR; [exact U|lia].
    - cbn [app ordered]. rewrite remove_top by exact N. exact Q. }
  assert (UR : under (rank (LRow r)) h) by (rewrite RR; exact U).
  destruct up; cbn [app ordered]; rewrite <- ?app_assoc.
  - split; [exact UR|]. split; [left; reflexivity|]. split.
    + intros l' m' [E|I] D; [congruence|]. exact (UR _ _ I).
    + rewrite !set_mode_top by exact N. exact R.
  - split; [exact UR|]. rewrite set_mode_top by exact N. exact R.
Qed.

Lemma rows_ordered l h q : under 6 h -> ordered rank h q -> ordered rank h (flat_map row_read l ++ q).
Proof. intros U Q. apply ordered_flat; [|exact Q]. intros v _ q' Q'. apply row_ordered; assumption. Qed.

Lemma batch_ordered m rows h q : under 4 h -> ordered rank h q -> ordered rank h (batch_locks m rows ++ q).
Proof.
  intros U Q. unfold batch_locks. cbn [app]. rewrite <- app_assoc. cbn [app]. destruct rank_high as (_ & _ & RB & _).
  apply ordered_section; [rewrite RB; exact U| |exact Q]. intros q' Q'. apply rows_ordered; [|exact Q'].
  apply under_cons; rewrite RB; [exact U|lia].
Qed.

Lemma under_nil n : under n [].
Proof. intros l m []. Qed.

Lemma under1 l m n : rank l < n -> under n [(l, m)].
Proof. intros L. apply under_cons; [apply under_nil|exact L]. Qed.

(** a whole statement: one outer lock *)
Lemma ordered_outer l m body : (forall q', ordered rank [(l, m)] q' -> ordered rank [(l, m)] (body ++ q')) ->
  ordered rank [] (Acq l m :: body ++ [Rel l]).
Proof. intros B. apply ordered_section; [apply under_nil|exact B|reflexivity]. Qed.

(** all statements but those that take both the spaces and the models *)
Lemma one_ordered s : models_after_spaces s = false -> spaces_after_models s = false -> ordered rank [] (locks s).
Proof.
  intros A B. destruct rank_high as (RG & RU & RB & RL & RR & RLi & RS & RM).
  assert (US : forall m n, 2 <= n -> under n [(LSpaces, m)]) by (intros; apply under1; lia).
  assert (UM : forall m n, 2 <= n -> under n [(LModels, m)]) by (intros; apply under1; lia).
  assert (UU : forall m, under 3 [(LUsers, m)]) by (intros; apply under1; lia).
  destruct s as [fresh gns|found gns|found gns|found gns|fresh gns com|found em gns|found legal gns|found gns| | |root| | |m found ok|m found|row ls|row|m ok rows| |m|m rows|ms];
    cbn [models_after_spaces spaces_after_models] in A, B; try discriminate A; cbn [locks].
  - apply ordered_outer. intros q Q. destruct fresh; [apply gns_ordered; auto|exact Q].
  - apply ordered_outer. intros q Q. destruct found; [apply gns_ordered; auto|exact Q].
  - apply ordered_outer. intros q Q. destruct found; [apply gns_ordered; auto|exact Q].
  - apply ordered_outer. intros q Q. destruct fresh; [|exact Q]. destruct gns; [destruct com; [discriminate A|]|]; cbn [andb]; rewrite app_nil_r; apply gns_ordered; auto.
  - destruct found; [discriminate A|]. apply ordered_outer. intros q Q. exact Q.
  - destruct found; [discriminate B|]. apply ordered_outer. intros q Q. exact Q.
  - apply ordered_outer. intros q Q. destruct found; [apply gns_ordered; auto|exact Q].
  - exact (ordered_outer LUsers MR [] (fun q Q => Q)).
  - exact (ordered_outer LSpaces MR [] (fun q Q => Q)).
  - change (ordered rank [] (Acq LSpaces MR :: [] ++ Rel LSpaces :: (if root then [Acq LUsers MR; Rel LUsers] else []))).
    apply ordered_section; [apply under_nil|auto|]. destruct root; [|reflexivity]. exact (ordered_outer LUsers MR [] (fun q Q => Q)).
  - exact (ordered_outer LModels MR [] (fun q Q => Q)).
  - exact (ordered_outer LSpaces MR [] (fun q Q => Q)).
  - apply ordered_outer. intros q Q. destruct (found && ok); [|exact Q].
    apply (ordered_section (LLatch m) MR []); [rewrite RL; apply UM; lia|auto|exact Q].
  - apply ordered_outer. intros q Q. destruct found; [|exact Q].
    apply (ordered_section (LLatch m) MR []); [rewrite RL; apply UM; lia|auto|exact Q].
  - apply ordered_outer. intros q Q. destruct row as [r|]; [|exact Q]. cbn [app]. rewrite <- app_assoc. cbn [app].
    apply ordered_section; [rewrite RR; apply UM; lia| |exact Q]. intros q' Q'. apply ordered_flat; [|exact Q'].
    intros i _ q2 Q2. apply (ordered_section (LList 0 i) MW []); [|auto|exact Q2]. rewrite RLi. apply under_cons; rewrite RR; [apply UM; lia|lia].
  - apply ordered_outer. intros q Q. destruct row as [v|]; [|exact Q]. apply row_ordered; [apply UM; lia|exact Q].
  - apply ordered_outer. intros q Q. destruct ok; [|exact Q]. cbn [app]. rewrite <- app_assoc. cbn [app].
    apply ordered_section; [rewrite RL; apply UM; lia| |exact Q]. intros q' Q'. apply rows_ordered; [|exact Q'].
    apply under_cons; rewrite RL; [apply UM; lia|lia].
  - exact (ordered_outer LGns MW [] (fun q Q => Q)).
  - apply ordered_outer. intros q Q. destruct m as [m|]; [|exact Q]. apply (ordered_section (LBatch m) MW []); [rewrite RB; apply UM; lia|auto|exact Q].
  - apply ordered_outer. intros q Q. destruct m as [m|]; [|exact Q]. apply batch_ordered; [apply UM; lia|exact Q].
  - apply ordered_outer. intros q Q. apply ordered_flat; [|exact Q]. intros x _ q' Q'. apply batch_ordered; [apply UM; lia|exact Q'].
Qed.
End Rank.

Lemma rank1_high : rank1 LGns = 3 /\ rank1 LUsers = 2 /\ (forall m, rank1 (LBatch m) = 4) /\ (forall m, rank1 (LLatch m) = 5) /\
  (forall r, rank1 (LRow r) = 6) /\ (forall d i, rank1 (LList d i) = 7 + d) /\ rank1 LSpaces < 2 /\ rank1 LModels < 2.
Proof. repeat split; cbn; lia. Qed.
Lemma rank2_high : rank2 LGns = 3 /\ rank2 LUsers = 2 /\ (forall m, rank2 (LBatch m) = 4) /\ (forall m, rank2 (LLatch m) = 5) /\
  (forall r, rank2 (LRow r) = 6) /\ (forall d i, rank2 (LList d i) = 7 + d) /\ rank2 LSpaces < 2 /\ rank2 LModels < 2.
Proof. repeat split; cbn; lia. Qed.

Lemma ordered1 s : spaces_after_models s = false -> ordered rank1 [] (locks s).
Proof.
  intros B. destruct (models_after_spaces s) eqn:A; [|exact (one_ordered rank1 rank1_high s A B)].
  assert (U : forall m m', under rank1 3 [(LModels, m); (LSpaces, m')]).
  { intros m m' l x [E|[E|[]]]; injection E as <- <-; cbn; lia. }
  assert (U1 : forall m, under rank1 1 [(LSpaces, m)]) by (intros m; apply under1; cbn; lia).
  destruct s as [| | |found gns|fresh gns com|found em gns| | | | | | | | | | | | | | | |]; try discriminate A; cbn [locks].
  - replace ((if found then gns_ctx gns else []) ++ [Rel LModels; Rel LSpaces]) with (((if found then gns_ctx gns else []) ++ [Rel LModels]) ++ [Rel LSpaces]) by (rewrite <- app_assoc; reflexivity).
    apply (ordered_section rank1 LSpaces MW (Acq LModels MW :: (if found then gns_ctx gns else []) ++ [Rel LModels]) [] []); [apply under_nil| |reflexivity].
    intros q Q. cbn [app]. rewrite <- app_assoc. apply ordered_section; [apply U1| |exact Q].
    intros q' Q'. destruct found; [apply gns_ordered; [exact rank1_high|apply U|exact Q']|exact Q'].
  - destruct fresh; [|discriminate A]. destruct gns; [|discriminate A]. destruct com; [|discriminate A]. apply ordered_outer. intros q Q.
    rewrite <- app_assoc. apply (gns_ordered rank1 rank1_high true); [apply under1; cbn; lia|]. cbn [andb].
    apply (ordered_section rank1 LModels MW []); [apply U1|auto|exact Q].
  - destruct found; [|discriminate A]. apply ordered_outer. intros q Q. cbn [app]. rewrite <- app_assoc.
    apply ordered_section; [apply U1| |exact Q]. intros q' Q'. destruct em; [apply gns_ordered; [exact rank1_high|apply U|exact Q']|exact Q'].
Qed.

Lemma ordered2 s : models_after_spaces s = false -> ordered rank2 [] (locks s).
Proof.
  intros A. destruct (spaces_after_models s) eqn:B; [|exact (one_ordered rank2 rank2_high s A B)].
  destruct s as [| | | | | |found legal gns| | | | | | | | | | | | | | |]; try discriminate B. destruct found; [|discriminate B]. cbn [locks].
  apply ordered_outer. intros q Q. cbn [app]. rewrite <- app_assoc.
  apply ordered_section; [apply under1; cbn; lia| |exact Q]. intros q' Q'. destruct legal; [|exact Q'].
  apply gns_ordered; [exact rank2_high| |exact Q']. intros l x [E|[E|[]]]; injection E as <- <-; cbn; lia.
Qed.

(** * Deadlock *)
(** two statements, each holding what the other waits for *)
Definition deadlocked (c : config) (i j : nat) (s t : thread) : Prop :=
  i <> j /\ nth_error c i = Some s /\ nth_error c j = Some t /\
  (exists p, th_prog s = Acq LSpaces MR :: p) /\ In (LModels, MW) (th_held s) /\
  (exists p, th_prog t = Acq LModels MW :: p) /\ In (LSpaces, MW) (th_held t).

Lemma deadlock_step c c' i j s t : deadlocked c i j s t -> step c c' ->
  deadlocked c' i j s t /\
  (forall k u, nth_error c k = Some u -> (exists m p, th_prog u = Acq LSpaces m :: p \/ th_prog u = Acq LModels m :: p) -> nth_error c' k = Some u).
Proof.
  intros (N & S & T & (ps & PS) & HS & (pt & PT) & HT) St. destruct St as [c k u U R].
  assert (NS : forall v m p, nth_error c k = Some v -> th_prog v = Acq LSpaces m :: p -> False).
  { intros v m p V P. assert (v = u) by congruence. subst v. unfold ready in R. rewrite P in R. destruct (Nat.eq_dec k j) as [->|D].
    - rewrite T in U. injection U as <-. congruence.
    - apply R. exists j, t, MW. repeat split; auto. destruct m; reflexivity. }
  assert (NM : forall v m p, nth_error c k = Some v -> th_prog v = Acq LModels m :: p -> False).
  { intros v m p V P. assert (v = u) by congruence. subst v. unfold ready in R. rewrite P in R. destruct (Nat.eq_dec k i) as [->|D].
    - rewrite S in U. injection U as <-. congruence.
    - apply R. exists i, s, MW. repeat split; auto. destruct m; reflexivity. }
  assert (Ki : k <> i) by (intros ->; exact (NS s MR ps S PS)).
  assert (Kj : k <> j) by (intros ->; exact (NM t MW pt T PT)).
  split.
  - split; [exact N|]. rewrite !nth_set_other by assumption. repeat split; eauto.
  - intros k' v V (m & p & Q). destruct (Nat.eq_dec k k') as [<-|D]; [|rewrite nth_set_other by exact D; exact V].
    destruct Q as [Q|Q]; [destruct (NS v m p V Q)|destruct (NM v m p V Q)].
Qed.

Lemma deadlock_steps c c' i j s t : steps c c' -> deadlocked c i j s t -> deadlocked c' i j s t /\
  (forall k u, nth_error c k = Some u -> (exists m p, th_prog u = Acq LSpaces m :: p \/ th_prog u = Acq LModels m :: p) -> nth_error c' k = Some u).
Proof.
  induction 1 as [c|c c1 c2 S S' IH]; intros D; [auto|]. destruct (deadlock_step _ _ _ _ _ _ D S) as (D1 & K). destruct (IH D1) as (D2 & K2).
  split; [exact D2|]. intros k u U P. apply K2; [|exact P]. exact (K k u U P).
Qed.

Lemma finishes_done c : finishes c -> exists c', steps c c' /\ all_done c'.
Proof.
  induction 1 as [c [D|(i & t & T & U)] F IH].
  - exists c. split; [constructor|exact D].
  - pose proof (Step c i t T (proj1 U)) as S. destruct (IH _ S) as (c' & Ss & D). exists c'. split; [econstructor; eassumption|exact D].
Qed.

Lemma deadlock_no_finish c i j s t : deadlocked c i j s t -> ~ finishes c.
Proof.
  intros D F. destruct (finishes_done c F) as (c' & S & A). destruct (deadlock_steps _ _ _ _ _ _ S D) as ((_ & T & _ & (p & P) & _) & _).
  apply nth_error_In in T. rewrite (A _ T) in P. discriminate P.
Qed.

Lemma finishes_steps c c' : steps c c' -> finishes c -> finishes c'.
Proof. induction 1 as [c|c c1 c2 S S' IH]; intros F; [exact F|]. apply IH. destruct F as [_ F]. exact (F _ S). Qed.

(** the start with two of its threads on their way *)
Definition cfg (ss : list stmt) (i j : nat) (s t : thread) : config := set_nth j t (set_nth i s (start ss)).

Lemma cfg_nth ss i j s t k u : i <> j -> nth_error (cfg ss i j s t) k = Some u -> (k = i /\ u = s) \/ (k = j /\ u = t) \/ th_held u = [].
Proof.
  intros N E. unfold cfg in E. assert (ST : forall k u, nth_error (start ss) k = Some u -> th_held u = []).
  { intros k' u' E'. apply nth_error_In in E'. apply in_map_iff in E'. destruct E' as (x & <- & _). reflexivity. }
  assert (SN : forall (i : nat) (x y : thread) l, nth_error (set_nth i x l) i = Some y -> y = x).
  { clear. induction i; intros x y [|a l] E; try discriminate E; cbn in E; [congruence|exact (IHi _ _ _ E)]. }
  destruct (Nat.eq_dec j k) as [<-|Nj].
  - right; left. split; [reflexivity|]. exact (SN _ _ _ _ E).
  - rewrite nth_set_other in E by exact Nj. destruct (Nat.eq_dec i k) as [<-|Ni].
    + left. split; [reflexivity|]. exact (SN _ _ _ _ E).
    + rewrite nth_set_other in E by exact Ni. right; right. exact (ST _ _ E).
Qed.

Lemma set_set {A} (x y : A) : forall i l, set_nth i x (set_nth i y l) = set_nth i x l.
Proof. induction i; intros [|a l]; cbn; [reflexivity..|]. f_equal. apply IHi. Qed.
Lemma set_comm {A} (x y : A) : forall i j l, i <> j -> set_nth i x (set_nth j y l) = set_nth j y (set_nth i x l).
Proof. induction i; intros [|j] [|a l] N; cbn; try reflexivity; try lia. f_equal. apply IHi. lia. Qed.

Lemma cfg_i ss i j s t a : i <> j -> nth_error ss i = Some a -> nth_error (cfg ss i j s t) i = Some s.
Proof.
  intros N E. unfold cfg. rewrite nth_set_other by auto. apply (nth_set_same _ _ _ (MkThread (locks a) [])).
  unfold start. rewrite nth_error_map, E. reflexivity.
Qed.
Lemma cfg_j ss i j s t a : i <> j -> nth_error ss j = Some a -> nth_error (cfg ss i j s t) j = Some t.
Proof.
  intros N E. unfold cfg. rewrite set_comm by auto. rewrite nth_set_other by auto. apply (nth_set_same _ _ _ (MkThread (locks a) [])).
  unfold start. rewrite nth_error_map, E. reflexivity.
Qed.

Lemma move_i ss i j s t a : i <> j -> nth_error ss i = Some a -> ready (cfg ss i j s t) i s -> step (cfg ss i j s t) (cfg ss i j (advance s) t).
Proof.
  intros N E R. replace (cfg ss i j (advance s) t) with (set_nth i (advance s) (cfg ss i j s t)).
  - apply Step; [exact (cfg_i ss i j s t a N E)|exact R].
  - unfold cfg. rewrite set_comm by exact N. rewrite set_set. reflexivity.
Qed.
Lemma move_j ss i j s t a : i <> j -> nth_error ss j = Some a -> ready (cfg ss i j s t) j t -> step (cfg ss i j s t) (cfg ss i j s (advance t)).
Proof.
  intros N E R. replace (cfg ss i j s (advance t)) with (set_nth j (advance t) (cfg ss i j s t)).
  - apply Step; [exact (cfg_j ss i j s t a N E)|exact R].
  - unfold cfg. rewrite set_set. reflexivity.
Qed.

Lemma ready_i ss i j p l m h h' p' : i <> j -> (forall x, ~ In (l, x) h') -> ready (cfg ss i j (MkThread (Acq l m :: p) h) (MkThread p' h')) i (MkThread (Acq l m :: p) h).
Proof.
  intros N H. cbn [ready th_prog]. intros (k & u & m' & D & E & I & _). destruct (cfg_nth _ _ _ _ _ _ _ N E) as [(-> & _)|[(_ & ->)|Z]]; [congruence| |].
  - exact (H _ I).
  - rewrite Z in I. destruct I.
Qed.
Lemma ready_j ss i j p l m h h' p' : i <> j -> (forall x, ~ In (l, x) h) -> ready (cfg ss i j (MkThread p h) (MkThread (Acq l m :: p') h')) j (MkThread (Acq l m :: p') h').
Proof.
  intros N H. cbn [ready th_prog]. intros (k & u & m' & D & E & I & _). destruct (cfg_nth _ _ _ _ _ _ _ N E) as [(_ & ->)|[(-> & _)|Z]]; [|congruence|].
  - exact (H _ I).
  - rewrite Z in I. destruct I.
Qed.

Lemma cfg_start ss i j a b : i <> j -> nth_error ss i = Some a -> nth_error ss j = Some b -> start ss = cfg ss i j (MkThread (locks a) []) (MkThread (locks b) []).
Proof.
  intros N A B. assert (SI : forall {X} k (l : list X) x, nth_error l k = Some x -> set_nth k x l = l).
  { clear. induction k; intros [|y l] x E; try discriminate E; cbn in E |- *; [congruence|]. f_equal. exact (IHk _ _ E). }
  unfold cfg. rewrite (SI _ i (start ss)), (SI _ j (start ss)); [reflexivity| |]; unfold start; rewrite nth_error_map.
  - rewrite B. reflexivity.
  - rewrite A. reflexivity.
Qed.

(** C56. If among the statements there is an ALTER MODEL of a model that exists, and a CREATE MODEL, a DROP
    MODEL or a forced DROP SPACE, then there is a schedule in which these two wait for each other. *)
Theorem C56_deadlock ss i j a b : nth_error ss i = Some a -> nth_error ss j = Some b ->
  spaces_after_models a = true -> models_after_spaces b = true ->
  exists c s t, steps (start ss) c /\ deadlocked c i j s t.
Proof.
  intros A B PA PB. assert (N : i <> j).
  { intros <-. assert (a = b) by congruence. subst b. destruct a as [| | | | | |found legal gns| | | | | | | | | | | | | | |]; try discriminate PA. discriminate PB. }
  destruct a as [| | | | | |found legal gns| | | | | | | | | | | | | | |]; try discriminate PA. destruct found; [|discriminate PA].
  set (pa := Acq LSpaces MR :: (if legal then gns_ctx gns else []) ++ [Rel LSpaces; Rel LModels]).
  assert (LA : locks (SAlterModel true legal gns) = Acq LModels MW :: pa).
  { unfold pa. cbn [locks app]. rewrite <- app_assoc. reflexivity. }
  assert (SA : forall t, (forall x, ~ In (LModels, x) (th_held t)) ->
    step (cfg ss i j (MkThread (locks (SAlterModel true legal gns)) []) t) (cfg ss i j (MkThread pa [(LModels, MW)]) t)).
  { intros [p h] H. rewrite LA. apply (move_i ss i j (MkThread (Acq LModels MW :: pa) []) (MkThread p h) _ N A). apply ready_i; [exact N|exact H]. }
  assert (E : start ss = cfg ss i j (MkThread (locks (SAlterModel true legal gns)) []) (MkThread (locks b) [])) by exact (cfg_start ss i j _ _ N A B).
  assert (FIN : forall pb t, steps (cfg ss i j (MkThread pa [(LModels, MW)]) (MkThread (locks b) [])) (cfg ss i j (MkThread pa [(LModels, MW)]) t) ->
    th_prog t = Acq LModels MW :: pb -> In (LSpaces, MW) (th_held t) -> exists c s t, steps (start ss) c /\ deadlocked c i j s t).
  { intros pb t S P H. exists (cfg ss i j (MkThread pa [(LModels, MW)]) t), (MkThread pa [(LModels, MW)]), t. split.
    - rewrite E. eapply StepsCons; [apply SA; intros x []|]. exact S.
    - split; [exact N|]. split; [exact (cfg_i _ _ _ _ _ _ N A)|]. split; [exact (cfg_j _ _ _ _ _ _ N B)|]. split; [eexists; reflexivity|].
      split; [left; reflexivity|]. split; [eexists; exact P|exact H]. }
  assert (SB : forall p', locks b = Acq LSpaces MW :: p' ->
    step (cfg ss i j (MkThread pa [(LModels, MW)]) (MkThread (locks b) [])) (cfg ss i j (MkThread pa [(LModels, MW)]) (MkThread p' [(LSpaces, MW)]))).
  { intros p' ->. apply (move_j ss i j _ (MkThread (Acq LSpaces MW :: p') []) _ N B). apply ready_j; [exact N|]. intros x [Q|[]]. discriminate Q. }
  destruct b as [| | |found gns'|fresh gns' com|found em gns'| | | | | | | | | | | | | | | |]; try discriminate PB.
  - cbn [locks] in SB, FIN.
    apply (FIN ((if found then gns_ctx gns' else []) ++ [Rel LModels; Rel LSpaces]) (MkThread (Acq LModels MW :: (if found then gns_ctx gns' else []) ++ [Rel LModels; Rel LSpaces]) [(LSpaces, MW)])); [eapply StepsCons; [apply SB; reflexivity|apply StepsNil]|reflexivity|left; reflexivity].
  - destruct fresh; [|discriminate PB]. destruct gns'; [|discriminate PB]. destruct com; [|discriminate PB]. cbn [locks gns_ctx andb app] in SB, FIN.
    apply (FIN [Rel LModels; Rel LSpaces] (MkThread [Acq LModels MW; Rel LModels; Rel LSpaces] [(LSpaces, MW)])); [|reflexivity|left; reflexivity].
    eapply StepsCons; [apply SB; reflexivity|]. eapply StepsCons.
    + apply (move_j ss i j _ _ _ N B). apply ready_j; [exact N|]. intros x [Q|[]]. discriminate Q.
    + cbn [advance th_prog th_held]. eapply StepsCons.
      * apply (move_j ss i j _ _ _ N B). exact I.
      * cbn [advance th_prog th_held]. apply StepsNil.
  - destruct found; [|discriminate PB]. cbn [locks app] in SB, FIN.
    eapply (FIN _ (MkThread (Acq LModels MW :: _) [(LSpaces, MW)])); [eapply StepsCons; [apply SB; reflexivity|apply StepsNil]|reflexivity|left; reflexivity].
Qed.

(** C56 (the exact condition). Statements that run at the same time all finish under every schedule if and only if there is
    not both an ALTER MODEL of a model that exists and a CREATE MODEL, DROP MODEL or forced DROP SPACE. *)
Theorem C56_exact ss : finishes (start ss) <->
  ~ ((exists a, In a ss /\ spaces_after_models a = true) /\ (exists b, In b ss /\ models_after_spaces b = true)).
Proof.
  split.
  - intros F ((a & IA & PA) & (b & IB & PB)). apply In_nth_error in IA, IB. destruct IA as (i & A), IB as (j & B).
    destruct (C56_deadlock ss i j a b A B PA PB) as (c & s & t & S & D). exact (deadlock_no_finish _ _ _ _ _ D (finishes_steps _ _ S F)).
  - intros H. assert (D : (forall s, In s ss -> spaces_after_models s = false) \/ (forall s, In s ss -> models_after_spaces s = false)).
    { destruct (existsb spaces_after_models ss) eqn:EA.
      - right. intros s I. destruct (models_after_spaces s) eqn:EB; [|reflexivity]. destruct H. apply existsb_exists in EA. split; [|exists s; auto].
        destruct EA as (x & Ix & Px). exists x. auto.
      - left. intros s I. destruct (spaces_after_models s) eqn:E; [|reflexivity].
        assert (existsb spaces_after_models ss = true) by (apply existsb_exists; exists s; auto). congruence. }
    destruct D as [D|D].
    + apply (good_finishes rank1 _ _ (le_n _)). apply start_good. intros s I. apply ordered1. exact (D s I).
    + apply (good_finishes rank2 _ _ (le_n _)). apply start_good. intros s I. apply ordered2. exact (D s I).
Qed.

(** C56. After such a deadlock no statement that starts by locking the spaces or the models ever does so: that is
    all statements except those on users, SYSCTL REPORT STATUS and logins. *)
Theorem C56_server_stuck c c' i j s t k u : deadlocked c i j s t -> steps c c' -> nth_error c k = Some u ->
  (exists m p, th_prog u = Acq LSpaces m :: p \/ th_prog u = Acq LModels m :: p) ->
  nth_error c' k = Some u.
Proof. intros D S U P. exact (proj2 (deadlock_steps _ _ _ _ _ _ S D) k u U P). Qed.

Theorem C56_which_statements s : (exists m p, locks s = Acq LSpaces m :: p \/ locks s = Acq LModels m :: p) \/
  match s with SUser _ _ | SLogin | TCheckGns => True | _ => False end.
Proof.
  destruct s; cbn [locks]; try (right; exact I); left; eexists; eexists; ((left; reflexivity) || (right; reflexivity)).
Qed.

(** C56 (partial): without ALTER MODEL everything finishes. *)
Theorem C56_partial ss : (forall s, In s ss -> match s with SAlterModel _ _ _ => False | _ => True end) -> finishes (start ss).
Proof.
  intros H. apply C56_exact. intros ((a & I & P) & _). specialize (H a I). destruct a; try discriminate P. exact H.
Qed.

(** C56 is false. *)
Theorem C56_refuted : exists ss, ~ finishes (start ss).
Proof.
  exists [SAlterModel true true true; SCreateModel true true true]. rewrite C56_exact. intros H. apply H. split.
  - eexists. split; [left; reflexivity|reflexivity].
  - eexists. split; [right; left; reflexivity|reflexivity].
Qed.

(** cases *)
Definition traffic : list stmt :=
  [SCreateModel true true true; SDropSpaceForced true true; SInsert 0 true true; SUpdate (Some 5) [1; 2];
   SSelectAll 0 true [MkVisit 5 true [LT 1 [LT 3 []]; LT 2 []]; MkVisit 6 false []];
   TSync [(0, [MkVisit 5 false []]); (1, [])]; SUser true true; SDropModel true true true].
Example C56_partial_case : forall s, In s traffic -> match s with SAlterModel _ _ _ => False | _ => True end.
Proof. intros s I. repeat (destruct I as [<-|I]; [exact Logic.I|]). destruct I. Qed.
Example C56_alter_case : ~ ((exists a, In a [SAlterModel true true true; SAlterModel true true true; SCreateSpace true true; SInspectGlobal true] /\ spaces_after_models a = true) /\
  (exists b, In b [SAlterModel true true true; SAlterModel true true true; SCreateSpace true true; SInspectGlobal true] /\ models_after_spaces b = true)).
Proof. intros (_ & (b & I & P)). repeat (destruct I as [<-|I]; [discriminate P|]). destruct I. Qed.
(** a SELECT that arrives during the deadlock *)
Example C56_stuck_case : exists c s t u,
  steps (start [SSelect None; SDropModel true true true; SAlterModel true true true]) c /\ deadlocked c 2 1 s t /\
  nth_error c 0 = Some u /\ exists p, th_prog u = Acq LModels MR :: p.
Proof.
  exists [MkThread [Acq LModels MR; Rel LModels] [];
     MkThread [Acq LModels MW; Acq LGns MW; Rel LGns; Rel LModels; Rel LSpaces] [(LSpaces, MW)];
     MkThread [Acq LSpaces MR; Acq LGns MW; Rel LGns; Rel LSpaces; Rel LModels] [(LModels, MW)]].
  eexists. eexists. eexists. split; [|split; [|split; [reflexivity|eexists; reflexivity]]].
  - eapply StepsCons; [eapply (Step _ 2); [reflexivity|]|].
    { cbn. intros (k & u & m & D & E & H & _). destruct k as [|[|[|k]]]; cbn in E; try discriminate E; try (injection E as <-; destruct H). destruct k; discriminate E. }
    cbn. eapply StepsCons; [eapply (Step _ 1); [reflexivity|]|apply StepsNil].
    cbn. intros (k & u & m & D & E & H & _). destruct k as [|[|[|k]]]; cbn in E; try discriminate E; try (injection E as <-).
    + destruct H.
    + destruct H.
    + cbn in H. destruct H as [H|[]]. discriminate H.
    + destruct k; discriminate E.
  - split; [discriminate|]. repeat split; try reflexivity; try (eexists; reflexivity); left; reflexivity.
Qed.

Print Assumptions C56_deadlock.
Print Assumptions C56_exact.
Print Assumptions C56_server_stuck.
Print Assumptions C56_which_statements.
Print Assumptions C56_partial.
Print Assumptions C56_refuted.
