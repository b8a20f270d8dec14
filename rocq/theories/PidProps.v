(** C100: only one server works in a directory at a time. *)
From Coq Require Import List NArith Bool Lia.
From Verif Require Import PidModel.
Import ListNotations.
Local Open Scope N_scope.

(** ** Specification *)
Definition serving (s : sys) (p : N) : Prop := exists i, ps s p = PServe i.
Definition opened (s : sys) (p : N) : Prop := exists i, ps s p = POpen i.
Definition alive (s : sys) (p : N) : Prop := ps s p <> PNew /\ ps s p <> PEnd.
(** no name is removed while another process is between opening the file and locking it *)
Fixpoint calm (s : sys) (l : list act) : Prop :=
  match l with
  | [] => True
  | a :: r => match step s a with
              | Some s' => match a with AClose _ => forall q, ~ opened s q | _ => True end /\ calm s' r
              | None => True
              end
  end.

(** ** Proofs *)
Lemma upd_same {A} (f : N -> A) k x : upd f k x k = x.
Proof. unfold upd. now rewrite N.eqb_refl. Qed.
Lemma upd_other {A} (f : N -> A) k x y : y <> k -> upd f k x y = f y.
Proof. intros D. unfold upd. apply N.eqb_neq in D. now rewrite D. Qed.

(** In every run: the lock of an inode belongs to the process that serves with it (or is closing), and to no other; inodes are old *)
Definition inv (s : sys) : Prop :=
  (forall p i, ps s p = PServe i \/ ps s p = PClosing i -> lock s i = Some p) /\
  (forall i p, lock s i = Some p -> ps s p = PServe i \/ ps s p = PClosing i) /\
  (forall p i, ps s p = POpen i \/ ps s p = PServe i \/ ps s p = PClosing i -> i < next s) /\
  (forall i, name s = Some i -> i < next s).
Lemma inv0 : inv sys0.
Proof.
  split; [|split; [|split]]; cbn.
  - intros p i [H|H]; discriminate H.
  - intros i p H. discriminate H.
  - intros p i [H|[H|H]]; discriminate H.
  - intros i H. discriminate H.
Qed.
Ltac cases p q := destruct (N.eq_dec q p) as [->|?]; [rewrite ?upd_same in *|rewrite ?upd_other in * by assumption].
Lemma inv_end s p i : inv s -> ps s p = PServe i \/ ps s p = PClosing i -> inv (mk_sys (upd (ps s) p PEnd) (name s) (upd (lock s) i None) (next s)).
Proof.
  intros (A & B & C & D) P. split; [|split; [|split]]; cbn [ps lock name next].
  - intros q j Q. cases p q; [destruct Q as [Q|Q]; discriminate Q|]. pose proof (A q j Q) as L. rewrite upd_other; [exact L|].
    intros ->. pose proof (A p i P). congruence.
  - intros j q L. destruct (N.eq_dec j i) as [->|NE]; [rewrite upd_same in L; discriminate L|]. rewrite upd_other in L by assumption.
    pose proof (B j q L) as Q. cases p q; [|exact Q]. pose proof (A p i P). destruct P as [P|P]; destruct Q as [Q|Q]; congruence.
  - intros q j Q. cases p q; [destruct Q as [Q|[Q|Q]]; discriminate Q|]. now apply (C q).
  - exact D.
Qed.
Lemma inv_step s a s' : inv s -> step s a = Some s' -> inv s'.
Proof.
  intros (A & B & C & D) H. destruct a as [p|p|p|p|p]; cbn [step] in H; destruct (ps s p) as [|i|i|i|] eqn:P; try discriminate H.
  - destruct (name s) as [i|] eqn:N; injection H as <-; (split; [|split; [|split]]); cbn [ps lock name next].
    + intros q j Q. cases p q; [destruct Q as [Q|Q]; discriminate Q|]. now apply A.
    + intros j q L. specialize (B j q L). cases p q; [rewrite P in B; destruct B as [B|B]; discriminate B|exact B].
    + intros q j Q. cases p q; [destruct Q as [Q|[Q|Q]]; try discriminate Q; injection Q as <-; now apply D|]. now apply (C q).
    + intros j E. injection E as <-. now apply D.
    + intros q j Q. cases p q; [destruct Q as [Q|Q]; discriminate Q|]. now apply A.
    + intros j q L. specialize (B j q L). cases p q; [rewrite P in B; destruct B as [B|B]; discriminate B|exact B].
    + intros q j Q. cases p q; [destruct Q as [Q|[Q|Q]]; try discriminate Q; injection Q as <-; lia|]. specialize (C q j Q). lia.
    + intros j E. injection E as <-. lia.
  - destruct (lock s i) as [q0|] eqn:L; injection H as <-; (split; [|split; [|split]]); cbn [ps lock name next].
    + intros q j Q. cases p q; [destruct Q as [Q|Q]; discriminate Q|]. now apply A.
    + intros j q L'. specialize (B j q L'). cases p q; [rewrite P in B; destruct B as [B|B]; discriminate B|exact B].
    + intros q j Q. cases p q; [destruct Q as [Q|[Q|Q]]; discriminate Q|]. now apply (C q).
    + exact D.
    + intros q j Q. cases p q.
      * destruct Q as [Q|Q]; [injection Q as <-; now rewrite upd_same|discriminate Q].
      * specialize (A q j Q). rewrite upd_other; [exact A|]. intros ->. congruence.
    + intros j q L'. destruct (N.eq_dec j i) as [->|NE].
      * rewrite upd_same in L'. injection L' as <-. rewrite upd_same. now left.
      * rewrite upd_other in L' by assumption. specialize (B j q L'). cases p q; [rewrite P in B; destruct B as [B|B]; discriminate B|exact B].
    + intros q j Q. cases p q; [destruct Q as [Q|[Q|Q]]; try discriminate Q; injection Q as <-; apply (C p); now left|]. now apply (C q).
    + exact D.
  - injection H as <-. (split; [|split; [|split]]); cbn [ps lock name next].
    + intros q j Q. cases p q; [destruct Q as [Q|Q]; [discriminate Q|injection Q as <-; apply A; now left]|]. now apply A.
    + intros j q L. specialize (B j q L). cases p q; [rewrite P in B; destruct B as [B|B]; [injection B as <-; now right|discriminate B]|exact B].
    + intros q j Q. cases p q; [destruct Q as [Q|[Q|Q]]; try discriminate Q; injection Q as <-; apply (C p); right; now left|]. now apply (C q).
    + intros j E. discriminate E.
  - injection H as <-. apply inv_end; [repeat split; assumption|now right].
  - injection H as <-. (split; [|split; [|split]]); cbn [ps lock name next].
    + intros q j Q. cases p q; [destruct Q as [Q|Q]; discriminate Q|]. now apply A.
    + intros j q L. specialize (B j q L). cases p q; [rewrite P in B; destruct B as [B|B]; discriminate B|exact B].
    + intros q j Q. cases p q; [destruct Q as [Q|[Q|Q]]; discriminate Q|]. now apply (C q).
    + exact D.
  - injection H as <-. apply inv_end; [repeat split; assumption|now left].
  - injection H as <-. apply inv_end; [repeat split; assumption|now right].
Qed.
Lemma inv_run l : forall s s', inv s -> run s l = Some s' -> inv s'.
Proof.
  induction l as [|a l IH]; intros s s' I R; cbn [run] in R; [injection R as <-; exact I|].
  destruct (step s a) as [s1|] eqn:E; [|discriminate R]. exact (IH s1 s' (inv_step s a s1 I E) R).
Qed.

(** with calm removals, whoever has opened the file or serves has the file of that name *)
Definition named (s : sys) : Prop := forall p i, ps s p = POpen i \/ ps s p = PServe i -> name s = Some i.
Lemma named_end s p i : named s -> named (mk_sys (upd (ps s) p PEnd) (name s) (upd (lock s) i None) (next s)).
Proof. intros M q j Q. cbn [ps name] in *. cases p q; [destruct Q as [Q|Q]; discriminate Q|]. now apply (M q). Qed.
Lemma named_step s a s' : inv s -> named s -> step s a = Some s' -> match a with AClose _ => forall q, ~ opened s q | _ => True end -> named s'.
Proof.
  intros (A & B & C & D) M H K. destruct a as [p|p|p|p|p]; cbn [step] in H; destruct (ps s p) as [|i|i|i|] eqn:P; try discriminate H.
  - destruct (name s) as [i|] eqn:N; injection H as <-; intros q j Q; cbn [ps name] in *.
    + cases p q; [destruct Q as [Q|Q]; [now injection Q as ->|discriminate Q]|]. rewrite <- N. now apply (M q).
    + cases p q; [destruct Q as [Q|Q]; [now injection Q as ->|discriminate Q]|]. specialize (M q j Q). congruence.
  - destruct (lock s i) as [q0|] eqn:L; injection H as <-; intros q j Q; cbn [ps name] in *.
    + cases p q; [destruct Q as [Q|Q]; discriminate Q|]. now apply (M q).
    + cases p q; [destruct Q as [Q|Q]; [discriminate Q|injection Q as <-; apply (M p); now left]|]. now apply (M q).
  - injection H as <-. intros q j Q. cbn [ps name] in *. cases p q; [destruct Q as [Q|Q]; discriminate Q|]. exfalso.
    destruct Q as [Q|Q]; [apply (K q); now exists j|].
    pose proof (M q j (or_intror Q)) as E1. pose proof (M p i (or_intror P)) as E2.
    pose proof (A q j (or_introl Q)) as L1. pose proof (A p i (or_introl P)) as L2. congruence.
  - injection H as <-. now apply named_end.
  - injection H as <-. intros q j Q. cbn [ps name] in *. cases p q; [destruct Q as [Q|Q]; discriminate Q|]. now apply (M q).
  - injection H as <-. now apply named_end.
  - injection H as <-. now apply named_end.
Qed.
Lemma named_run l : forall s s', inv s -> named s -> calm s l -> run s l = Some s' -> named s'.
Proof.
  induction l as [|a l IH]; intros s s' I M K R; cbn [run calm] in *; [injection R as <-; exact M|].
  destruct (step s a) as [s1|] eqn:E; [|discriminate R]. destruct K as [K1 K2].
  exact (IH s1 s' (inv_step s a s1 I E) (named_step s a s1 I M E K1) K2 R).
Qed.

(** ** C100 *)
(** Full statement: in every run at most one process serves. It is refuted below; it holds when no server removes the file while another one is
    between opening and locking it - whatever is killed, refused or started again, in whatever order. *)
Theorem C100_exclusive_partial l s p q : run sys0 l = Some s -> calm sys0 l -> serving s p -> serving s q -> p = q.
Proof.
  intros R K [i P] [j Q]. pose proof (inv_run l _ _ inv0 R) as (A & _).
  assert (M : named s). { apply (named_run l sys0 s inv0); [|exact K|exact R]. intros x k [X|X]; discriminate X. }
  pose proof (M p i (or_intror P)). pose proof (M q j (or_intror Q)).
  pose proof (A p i (or_introl P)). pose proof (A q j (or_introl Q)). congruence.
Qed.
(** one server is killed, another started, a third refused, the second one ended and a fourth started before the second is quite gone *)
Definition busy : list act := [AOpen 1; ALock 1; AKill 1; AOpen 2; ALock 2; AOpen 3; ALock 3; AClose 2; AOpen 4; ALock 4; AExit 2].
Example C100_exclusive_example : calm sys0 busy /\ option_map (fun s => map (ps s) [1; 2; 3; 4; 5]) (run sys0 busy) = Some [PEnd; PEnd; PEnd; PServe 1; PNew].
Proof.
  split; [|vm_compute; reflexivity]. unfold busy. cbn -[opened upd N.eqb N.add]. unfold upd. cbn [N.eqb Pos.eqb ps name lock next].
  repeat split; trivial.
  intros q [i Q]. cbn in Q. unfold upd in Q.
  repeat match type of Q with (if ?b then _ else _) = _ => destruct b; [discriminate Q|] end. discriminate Q.
Qed.

(** In every run, with every order of calls: a start that is not interrupted ends in a serving process exactly when nobody who is still there has the lock of
    the file that has the name now. So a server whose file still has its name keeps every later one out, a killed one keeps nobody out, and nothing but the
    file of that name counts. *)
Theorem C100_start_exact l s q : run sys0 l = Some s -> ps s q = PNew ->
  exists s', run s [AOpen q; ALock q] = Some s' /\ (forall p, p <> q -> ps s' p = ps s p) /\
    (serving s' q \/ ps s' q = PEnd) /\
    (serving s' q <-> ~ exists p i, name s = Some i /\ (ps s p = PServe i \/ ps s p = PClosing i)).
Proof.
  intros R P. pose proof (inv_run l _ _ inv0 R) as (A & B & C & D). cbn [run step]. rewrite P.
  destruct (name s) as [i|] eqn:N; cbn [ps lock name next]; rewrite upd_same.
  - destruct (lock s i) as [p|] eqn:L.
    + eexists. split; [reflexivity|]. cbn [ps]. split; [intros x X; now rewrite !upd_other by assumption|].
      split; [right; apply upd_same|]. split.
      * intros [k K]. cbn [ps] in K. rewrite upd_same in K. discriminate K.
      * intros X. exfalso. apply X. exists p, i. split; [reflexivity|]. now apply B.
    + eexists. split; [reflexivity|]. cbn [ps]. split; [intros x X; now rewrite !upd_other by assumption|].
      assert (SV : serving (mk_sys (upd (upd (ps s) q (POpen i)) q (PServe i)) (Some i) (upd (lock s) i (Some q)) (next s)) q)
        by (exists i; apply upd_same).
      split; [left; exact SV|]. split; [|intros _; exact SV].
      intros _ (p & j & E & X). injection E as <-. specialize (A p i X). congruence.
  - assert (L : lock s (next s) = None).
    { destruct (lock s (next s)) as [p|] eqn:L; [|reflexivity]. exfalso. specialize (B _ _ L). assert (next s < next s); [|lia]. apply (C p). now right. }
    rewrite L. eexists. split; [reflexivity|]. cbn [ps]. split; [intros x X; now rewrite !upd_other by assumption|].
    assert (SV : serving (mk_sys (upd (upd (ps s) q (POpen (next s))) q (PServe (next s))) (Some (next s)) (upd (lock s) (next s) (Some q)) (next s + 1)) q)
      by (exists (next s); apply upd_same).
    split; [left; exact SV|]. split; [|intros _; exact SV]. intros _ (p & j & E & _). discriminate E.
Qed.
Example C100_start_example :
  option_map (fun s => ps s 3) (run sys0 [AOpen 1; ALock 1; AOpen 3; ALock 3]) = Some PEnd /\
  option_map (fun s => ps s 3) (run sys0 [AOpen 1; ALock 1; AKill 1; AOpen 3; ALock 3]) = Some (PServe 0).
Proof. split; vm_compute; reflexivity. Qed.
(** after any history, when every process has ended (killed or not), a server can be started *)
Theorem C100_no_stale_lock l s q : run sys0 l = Some s -> (forall p, ~ alive s p) -> ps s q = PNew ->
  exists s', run s [AOpen q; ALock q] = Some s' /\ serving s' q.
Proof.
  intros R E P. destruct (C100_start_exact l s q R P) as (s' & R' & _ & _ & X). exists s'. split; [exact R'|]. apply X.
  intros (p & i & _ & H). apply (E p). split; destruct H as [H|H]; rewrite H; discriminate.
Qed.
Example C100_no_stale_lock_example :
  option_map (fun s => (map (ps s) [1; 2], name s)) (run sys0 [AOpen 1; AOpen 2; ALock 2; ALock 1; AKill 2]) = Some ([PEnd; PEnd], Some 0).
Proof. vm_compute. reflexivity. Qed.

(** A server whose file has lost its name keeps nobody out: the next start, when nobody holds the named file, gives a second server. *)
Theorem C100_nameless l s p q i : run sys0 l = Some s -> ps s p = PServe i -> name s = None -> ps s q = PNew ->
  exists s', run s [AOpen q; ALock q] = Some s' /\ serving s' p /\ serving s' q /\ p <> q.
Proof.
  intros R P N Q. destruct (C100_start_exact l s q R Q) as (s' & R' & O & _ & X).
  assert (D : p <> q) by (intros ->; congruence). exists s'. split; [exact R'|]. split; [exists i; now rewrite O|].
  split; [apply X; intros (x & j & E & _); congruence|exact D].
Qed.
(** Server 1 stops while 2 is between opening and locking: 2 locks the file without a name, 3 makes a new one. Both serve in the same directory. *)
Definition overlap : list act := [AOpen 1; ALock 1; AOpen 2; AClose 1; AExit 1; ALock 2; AOpen 3; ALock 3].
Theorem C100_refuted : exists l s p q, run sys0 l = Some s /\ p <> q /\ serving s p /\ serving s q.
Proof.
  exists overlap. destruct (run sys0 overlap) as [s|] eqn:R; [|vm_compute in R; discriminate R]. exists s, 2, 3.
  split; [reflexivity|]. vm_compute in R. injection R as <-. split; [discriminate|]. split; eexists; vm_compute; reflexivity.
Qed.
(** There is no bound on the number of servers. *)
Theorem C100_unbounded n : exists l s ps', run sys0 l = Some s /\ NoDup ps' /\ List.length ps' = n /\ forall p, In p ps' -> serving s p.
Proof.
  assert (G : exists l s ps', run sys0 l = Some s /\ NoDup ps' /\ List.length ps' = n /\ (forall p, In p ps' -> serving s p) /\
     name s = None /\ exists m, forall p, m <= p -> ps s p = PNew).
  { induction n as [|n (l & s & qs & R & ND & LN & SV & N & m & F)].
    - exists [], sys0, []. split; [reflexivity|]. split; [constructor|]. split; [reflexivity|]. split; [intros p []|].
      split; [reflexivity|]. exists 0. reflexivity.
    - pose proof (inv_run l _ _ inv0 R) as (A & B & C & D).
      assert (L : lock s (next s) = None).
      { destruct (lock s (next s)) as [p|] eqn:L; [|reflexivity]. exfalso. specialize (B _ _ L). assert (next s < next s); [|lia]. apply (C p). now right. }
      assert (OLD : forall p, In p qs -> p < m).
      { intros p I. destruct (N.lt_ge_cases p m) as [X|X]; [exact X|]. destruct (SV p I) as [i Q]. rewrite (F p X) in Q. discriminate Q. }
      assert (NE : m + 1 <> m) by lia. assert (NE' : m <> m + 1) by lia.
      exists (l ++ [AOpen m; ALock m; AOpen (m + 1); AClose m; AExit m; ALock (m + 1)]).
      assert (RA : forall a b s0 s1, run s0 a = Some s1 -> run s0 (a ++ b) = run s1 b).
      { clear. induction a as [|x a IH]; intros b s0 s1 R; cbn [run app] in *; [now injection R as ->|].
        destruct (step s0 x); [now apply IH|discriminate R]. }
      rewrite (RA _ _ _ _ R). cbn [run step]. rewrite (F m (N.le_refl _)), N. cbn [ps lock name next].
      rewrite upd_same, L. cbn [ps lock name next]. rewrite !(upd_other _ _ _ (m + 1)) by exact NE. rewrite (F (m + 1)) by lia.
      cbn [ps lock name next]. rewrite (upd_other _ (m + 1) _ m) by exact NE'. rewrite upd_same. cbn [ps lock name next].
      rewrite upd_same. cbn [ps lock name next]. rewrite !(upd_other _ m _ (m + 1)) by exact NE. rewrite upd_same, upd_same. cbn [ps lock name next].
      eexists. exists (m + 1 :: qs). split; [reflexivity|]. split; [constructor; [intros I; specialize (OLD _ I); lia|exact ND]|].
      split; [cbn [List.length]; now rewrite LN|]. cbn [ps name]. split; [|split; [reflexivity|]].
      + intros p [<-|I]; [exists (next s); apply upd_same|]. destruct (SV p I) as [i Q]. specialize (OLD p I). exists i. cbn [ps].
        rewrite !upd_other by lia. exact Q.
      + exists (m + 2). intros p X. rewrite !upd_other by lia. apply F. lia. }
  destruct G as (l & s & qs & R & ND & LN & SV & _). exists l, s, qs. auto.
Qed.

Print Assumptions C100_exclusive_partial.
Print Assumptions C100_start_exact.
Print Assumptions C100_no_stale_lock.
Print Assumptions C100_nameless.
Print Assumptions C100_refuted.
Print Assumptions C100_unbounded.
