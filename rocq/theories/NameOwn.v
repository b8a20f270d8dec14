(** Every block is owned by exactly one entry of the table of names. *)
From Coq Require Import List NArith Bool Arith Lia.
From Verif Require Import Bytes NameModel NameSpec NameProofs NameLoad.
Import ListNotations.

Section Own.
  Context {V : Type} (null : V).
  Notation mdl := (mdl V).
  Definition ownt (m : mem) (t : table) : Prop := forall p x, rd m p = Some x -> In p (map fst t).
  Definition own (s : mdl) : Prop := ownt (mm s) (tab s).

  Lemma kset_fst {A} m (l : list (ptr * A)) x a : forall l', kset m l x a = Some l' -> map fst l' = map fst l.
  Proof.
    induction l as [|[p b] l IH]; intros l' E; cbn [kset] in E; [injection E as <-; reflexivity|].
    destruct (rd m p); [|discriminate E]. destruct (kset m l x a) as [t|]; [|discriminate E]. injection E as <-. cbn [map fst]. f_equal. auto.
  Qed.
  Lemma push_own m t x m' t' p : ownt m t -> push_allocated m t x = Some (m', t', p) -> ownt m' t'.
  Proof.
    intros O. unfold push_allocated. destruct (kfind m t x) as [o|]; [|intros E; discriminate E]. destruct o as [[q f]|].
    - destruct (kset m t x false) as [t2|] eqn:K; [|intros E; discriminate E]. intros E. injection E as <- <- <-.
      unfold ownt. rewrite (kset_fst _ _ _ _ _ K). exact O.
    - unfold fresh. intros E. injection E as <- <- <-. intros q y R. rewrite map_app. apply in_or_app. cbn [map fst In].
      unfold rd in R. destruct (Nat.lt_trichotomy q (length m)) as [H|[H|H]].
      + left. apply (O q y). unfold rd. rewrite nth_error_app1 in R by exact H. exact R.
      + right. left. symmetry. exact H.
      + rewrite nth_error_app2 in R by lia. destruct (q - length m) as [|k] eqn:Q; [lia|]. cbn [nth_error] in R. destruct k; discriminate R.
  Qed.
  Lemma add_own s x b s' : own s -> add_field s x = Some (b, s') -> own s'.
  Proof.
    intros O. unfold add_field. destruct (push_allocated (mm s) (tab s) x) as [[[m t] p]|] eqn:E; [|intros Q; discriminate Q].
    destruct (kinsert m (fields s) p tt) as [[bb f]|]; [|intros Q; discriminate Q]. intros Q. injection Q as <- <-.
    unfold own. cbn [mm tab]. eapply push_own; eassumption.
  Qed.
  Lemma rem_own s x b s' : own s -> remove_field s x = Some (b, s') -> own s'.
  Proof.
    intros O. unfold remove_field, mark_pending_remove. destruct (kfind (mm s) (fields s) x) as [g|]; [|intros Q; discriminate Q].
    destruct (kdelete (mm s) (fields s) x) as [f|]; [|intros Q; discriminate Q].
    destruct (kfind (mm s) (tab s) x) as [[[p c]|]|]; [|intros Q; discriminate Q|intros Q; discriminate Q].
    destruct (kset (mm s) (tab s) x true) as [t|] eqn:K; [|intros Q; discriminate Q]. intros Q. injection Q as <- <-.
    unfold own, ownt. cbn [mm tab]. rewrite (kset_fst _ _ _ _ _ K). exact O.
  Qed.
  Lemma each_own f (F : forall s x b s', own s -> f s x = Some (b, s') -> own s') l : forall s s', own s -> each f s l = Some s' -> own s'.
  Proof.
    induction l as [|x l IH]; intros s s' O E; cbn [each] in E; [injection E as <-; exact O|].
    destruct (f s x) as [[b s1]|] eqn:K; [|discriminate E]. eapply IH; [|exact E]. eapply F; eassumption.
  Qed.
  Lemma each_checked_own f (F : forall s x b s', own s -> f s x = Some (b, s') -> own s') l : forall s s', own s -> each_checked f s l = Some (Some s') -> own s'.
  Proof.
    induction l as [|x l IH]; intros s s' O E; cbn [each_checked] in E; [injection E as <-; exact O|].
    destruct (f s x) as [[b s1]|] eqn:K; [|discriminate E]. destruct b; [|discriminate E]. eapply IH; [|exact E]. eapply F; eassumption.
  Qed.
  Lemma replay_own l : forall s s', own s -> replay s l = Some (Some s') -> own s'.
  Proof.
    induction l as [|e l IH]; intros s s' O E; cbn [replay] in E; [injection E as <-; exact O|].
    destruct e as [k xs|xs|xs]; [discriminate E| |].
    - destruct (each_checked add_field s xs) as [[s1|]|] eqn:K; [|discriminate E|discriminate E]. eapply IH; [|exact E]. eapply each_checked_own; [exact add_own|exact O|exact K].
    - destruct (each_checked remove_field s xs) as [[s1|]|] eqn:K; [|discriminate E|discriminate E]. eapply IH; [|exact E]. eapply each_checked_own; [exact rem_own|exact O|exact K].
  Qed.
  Lemma restore_own l : forall m t f m' t' f', ownt m t -> restore_loop m t f l = Some (m', t', f') -> ownt m' t'.
  Proof.
    induction l as [|x l IH]; intros m t f m' t' f' O E; cbn [restore_loop] in E; [injection E as <- <- <-; exact O|].
    destruct (push_allocated m t x) as [[[m1 t1] p]|] eqn:K; [|discriminate E]. destruct (kinsert m1 f p tt) as [[b f1]|]; [|discriminate E].
    eapply IH; [|exact E]. eapply push_own; eassumption.
  Qed.
  Lemma ownt_nil : ownt [] [].
  Proof. intros p x H. unfold rd in H. destruct p; discriminate H. Qed.
  Lemma new_restore_own k l s : new_restore (V := V) k l = Some s -> own s.
  Proof.
    unfold new_restore. destruct (push_allocated [] [] k) as [[[m t] p]|] eqn:K; [|intros E; discriminate E].
    destruct (restore_loop m t [] l) as [[[m2 t2] f]|] eqn:R; [|intros E; discriminate E]. intros E. injection E as <-.
    unfold own. cbn [mm tab]. eapply restore_own; [|exact R]. eapply push_own; [exact ownt_nil|exact K].
  Qed.
  Lemma create_own l : forall m t f last m' t' f' last', ownt m t -> create_loop m t f last l = Some (Some (m', t', f', last')) -> ownt m' t'.
  Proof.
    induction l as [|[x b] l IH]; intros m t f last m' t' f' last' O E; cbn [create_loop] in E; [injection E as <- <- <- <-; exact O|].
    destruct (allocate_or_recycle m t x) as [[[m1 t1] p]|] eqn:K; [|discriminate E]. destruct (kinsert m1 f p tt) as [[ok f1]|]; [|discriminate E].
    destruct ok; [|discriminate E]. eapply IH; [|exact E]. eapply (push_own m t x); [exact O|exact K].
  Qed.
  Lemma created_own l s : create (V := V) l = Some (Some s) -> own (md s).
  Proof.
    unfold create, process_create. destruct (create_loop [] [] [] None l) as [[[[[m t] f] last]|]|] eqn:C; [|intros E; discriminate E|intros E; discriminate E].
    destruct (length (filter snd l) <=? 1); [|intros E; discriminate E].
    assert (O : ownt m t) by (eapply create_own; [exact ownt_nil|exact C]).
    intros E. destruct last as [p|]; [|destruct f as [|[p u] f]; [discriminate E|]];
      cbn [mm pk fields] in E; (destruct (rd m p) as [k|]; [|discriminate E]);
      (match type of E with context [names_of ?a ?b] => destruct (names_of a b) as [xs|]; [|discriminate E] end); injection E as <-; exact O.
  Qed.
  Lemma load_own l : forall s s', load_rows null s l = Some s' -> mm s' = mm s /\ tab s' = tab s /\ fields s' = fields s /\ deltas s' = deltas s.
  Proof.
    induction l as [|b l IH]; intros s s' E; cbn [load_rows] in E; [injection E as <-; auto|].
    unfold load_row in E. destruct (but_key (mm s) (pk s) (fields s)) as [f|]; [|discriminate E].
    destruct (prepare_tuple (mm s) f (snd b) []) as [c|]; [|discriminate E].
    destruct (resolve null (mm s) (deltas s) (mk_row c (fst b))) as [r|]; [|discriminate E]. apply IH in E. exact E.
  Qed.
  Lemma vacuum_own (s : mdl) : own s -> own (vacuum_stashed s).
  Proof.
    intros O p x. unfold vacuum_stashed, vacuum_marked. cbn [mm tab]. rewrite rd_frees.
    destruct (in_dec Nat.eq_dec p (map fst (filter snd (tab s)))) as [J|J]; [intros E; discriminate E|]. intros E.
    apply O in E. apply in_map_iff in E as ([q f] & Q & E). cbn [fst] in Q. subst q. apply in_map_iff. exists (p, f). split; [reflexivity|].
    apply filter_In. split; [exact E|]. cbn [snd]. destruct f; auto. exfalso. apply J. apply in_map_iff. exists (p, true). split; [reflexivity|].
    apply filter_In. auto.
  Qed.
  Lemma restart_own e file s : restart null e file = Some (Some s) -> own s.
  Proof.
    unfold restart. destruct e as [|[k l|l|l] e]; try (intros E; discriminate E).
    destruct (new_restore k l) as [s0|] eqn:N; [|intros E; discriminate E].
    destruct (replay s0 e) as [[s1|]|] eqn:R; [|intros E; discriminate E|intros E; discriminate E].
    destruct (load_rows null s1 file) as [s2|] eqn:L; [|intros E; discriminate E]. intros E. injection E as <-.
    apply vacuum_own. apply load_own in L as (M & T & _). unfold own. rewrite M, T. eapply replay_own; [|exact R]. eapply new_restore_own. exact N.
  Qed.
  Lemma step_own s o s' a : own (md s) -> step null s o = Some (s', a) -> own (md s').
  Proof.
    intros O. destruct o as [l|l|d|i w|i l|file]; cbn [step].
    - unfold alter_add. destruct (add_checks (md s) [] l) as [[|]|]; [|intros E; injection E as <- <-; exact O|intros E; discriminate E].
      destruct (each add_field (md s) l) as [m|] eqn:K; [|intros E; discriminate E]. intros E. injection E as <- <-. cbn [md].
      eapply each_own; [exact add_own|exact O|exact K].
    - unfold alter_rem. destruct (rem_checks (md s) [] l) as [[|]|]; [|intros E; injection E as <- <-; exact O|intros E; discriminate E].
      destruct (each remove_field (md s) l) as [m|] eqn:K; [|intros E; discriminate E]. intros E. injection E as <- <-. cbn [md].
      eapply each_own; [exact rem_own|exact O|exact K].
    - unfold insert. match goal with |- context [match ?e with Some _ => _ | None => None end] => idtac end.
      destruct (match d with
        | Tuple vs => if length vs =? length (fields (md s)) then match prepare_tuple (mm (md s)) (fields (md s)) vs [] with Some c => Some (Some c) | None => None end else Some None
        | Named vs => if length vs =? length (fields (md s)) then prepare_map (mm (md s)) (fields (md s)) vs [] else Some None end) as [[c|]|];
        [|intros E; injection E as <- <-; exact O|intros E; discriminate E].
      destruct (rd (mm (md s)) (pk (md s))) as [k|]; [|intros E; discriminate E].
      destruct (kfind (mm (md s)) c k) as [g|]; [|intros E; discriminate E]. destruct (kdelete (mm (md s)) c k) as [c'|]; [|intros E; discriminate E].
      destruct g; intros E; injection E as <- <-; exact O.
    - unfold read_row. destruct (nth_error (rows (md s)) i) as [r|]; [|intros E; injection E as <- <-; exact O].
      destruct (resolve null (mm (md s)) (deltas (md s)) r) as [r'|]; [|intros E; discriminate E].
      destruct (match w with Some l => Some l | None => names_of (mm (md s)) (fields (md s)) end) as [l|]; [|intros E; discriminate E].
      destruct (read_names (mm (md s)) (pk (md s)) (r_cells r') l) as [gs|]; [|intros E; discriminate E]. intros E. injection E as <- <-. exact O.
    - unfold update. destruct (nth_error (rows (md s)) i) as [r|]; [|intros E; injection E as <- <-; exact O].
      destruct (assign (mm (md s)) (fields (md s)) (r_cells r) l) as [[c|]|]; [| |intros E; discriminate E]; intros E; injection E as <- <-; exact O.
    - destruct (restart null (log s) file) as [[m|]|] eqn:R; [|intros E; injection E as <- <-; exact O|intros E; discriminate E].
      intros E. injection E as <- <-. cbn [md]. eapply restart_own. exact R.
  Qed.
  Lemma run_own l : forall s s' la, own (md s) -> run null s l = Some (s', la) -> own (md s').
  Proof.
    induction l as [|o l IH]; intros s s' la O E; cbn [run] in E; [injection E as <- <-; exact O|].
    destruct (step null s o) as [[s1 a]|] eqn:K; [|discriminate E]. destruct (run null s1 l) as [[s2 lb]|] eqn:R; [|discriminate E].
    injection E as <- <-. eapply IH; [|exact R]. eapply step_own; eassumption.
  Qed.
End Own.
