(** C43: the health status reported by the server. *)
From Coq Require Import List NArith ZArith Bool Arith Lia.
From Verif Require Import HealthModel.
Import ListNotations.
Local Open Scope N_scope.

(** * What is meant *)
(** some driver is failed: that of the system journal, or that of a model *)
Definition failed_models (h : health) : list mdrv := filter md_iffy (h_models h).
Definition some_failed (h : health) : Prop := h_iffy h = true \/ failed_models h <> [].
Definition accurate (h : health) : Prop := status_okay h = true <-> ~ some_failed h.

(** pending attempts to bring the system journal back *)
Definition is_check (t : task) : bool := match t with CheckGns => true | _ => false end.
Definition checks (h : health) : N := N.of_nat (length (filter is_check (h_queue h))).

(** drivers of models brought back or dropped while failed by an event: what the code takes off the
    count of faults though it was never put on it *)
Fixpoint dropped_failed (ms : list N) (l : list mdrv) : N :=
  match ms with
  | [] => 0
  | m :: r =>
      match find m l with
      | Some d => (if md_iffy d then 1 else 0) + dropped_failed r (drop m l)
      | None => dropped_failed r l
      end
  end.
Definition stray (h : health) (e : event) : N :=
  match e with
  | RunTask true =>
      match h_queue h with
      | TryRecover m :: _ => match find m (h_models h) with Some _ => 1 | None => 0 end
      | _ => 0
      end
  | DropSpace ms => if idle (h_models h) then dropped_failed ms (h_models h) else 0
  | _ => 0
  end.
Fixpoint strays (h : health) (es : list event) : N :=
  match es with [] => 0 | e :: r => stray h e + strays (step h e) r end.

(** * The count *)
Definition counts (h : health) (k : N) : Prop :=
  h_faults h < word /\ (h_faults h + k) mod word = checks h mod word.

Lemma filter_app_len {A} (f : A -> bool) l r : length (filter f (l ++ r)) = (length (filter f l) + length (filter f r))%nat.
Proof. rewrite filter_app, app_length. reflexivity. Qed.

Lemma w_pos : word <> 0. Proof. discriminate. Qed.

Lemma add_mod_cong a b c d : a mod word = b mod word -> c mod word = d mod word -> (a + c) mod word = (b + d) mod word.
Proof. intros A B. rewrite (N.add_mod a c), (N.add_mod b d), A, B by exact w_pos. reflexivity. Qed.

Lemma recovery_back f k : (report_recovery f + (k + 1)) mod word = (f + k) mod word.
Proof.
  unfold report_recovery. rewrite N.add_mod_idemp_l by exact w_pos.
  replace (f + (word - 1) + (k + 1)) with ((f + k) + 1 * word).
  - apply N.mod_add. exact w_pos.
  - assert (1 <= word) by (unfold word; lia). lia.
Qed.

Lemma recovery_lt f : report_recovery f < word.
Proof. apply N.mod_lt. exact w_pos. Qed.

Lemma drop_faulty_counts m h k : counts h k ->
  counts (drop_faulty m h) (match find m (h_models h) with Some d => if md_iffy d then k + 1 else k | None => k end).
Proof.
  intros (L & C). unfold drop_faulty. destruct (find m (h_models h)) as [d|]; [|split; assumption].
  destruct (md_iffy d); [|split; assumption]. split; [apply recovery_lt|].
  cbn [h_faults]. unfold checks in *. cbn [h_queue]. rewrite recovery_back. exact C.
Qed.

Lemma drop_faulty_models m h : h_models (drop_faulty m h) = match find m (h_models h) with Some _ => drop m (h_models h) | None => h_models h end.
Proof. unfold drop_faulty. destruct (find m (h_models h)); reflexivity. Qed.

Lemma drops_counts ms : forall h k, counts h k ->
  counts (fold_left (fun a m => drop_faulty m a) ms h) (dropped_failed ms (h_models h) + k).
Proof.
  induction ms as [|m ms IH]; intros h k C; cbn [fold_left dropped_failed]; [exact C|].
  pose proof (drop_faulty_counts m h k C) as D. apply IH in D. rewrite drop_faulty_models in D.
  destruct (find m (h_models h)) as [d|]; [|exact D]. destruct (md_iffy d).
  - replace (1 + dropped_failed ms (drop m (h_models h)) + k) with (dropped_failed ms (drop m (h_models h)) + (k + 1)) by lia. exact D.
  - exact D.
Qed.

Lemma counts_eq h h' k : h_faults h' = h_faults h -> checks h' = checks h -> counts h k -> counts h' k.
Proof. intros F Q (L & C). unfold counts. rewrite F, Q. split; assumption. Qed.

Lemma checks_snoc q t f i b ms : checks (MkHealth f i b ms (q ++ [t])) = checks (MkHealth f i b ms q) + (if is_check t then 1 else 0).
Proof. unfold checks. cbn [h_queue]. rewrite filter_app_len. cbn [filter]. destruct (is_check t); cbn [length]; lia. Qed.

Lemma checks_cons q t f i b ms : checks (MkHealth f i b ms (t :: q)) = checks (MkHealth f i b ms q) + (if is_check t then 1 else 0).
Proof. unfold checks. cbn [h_queue filter]. destruct (is_check t); cbn [length]; lia. Qed.

Lemma step_counts h e k : counts h k -> counts (step h e) (stray h e + k).
Proof.
  intros C. destruct h as [f i b ms q]. destruct e as [|ok|m|m ok|ok|m|m|l]; cbn [step stray h_faults h_iffy h_busy h_models h_queue].
  - destruct i; exact C.
  - destruct b as [|b]; [exact C|]. destruct ok; [exact C|]. destruct C as (L & C). split.
    + apply N.mod_lt. exact w_pos.
    + rewrite checks_snoc. cbn [is_check]. cbn [h_faults] in *. unfold report_fault. rewrite N.add_mod_idemp_l by exact w_pos.
      replace (f + 1 + (0 + k)) with (f + k + 1) by lia. apply add_mod_cong; [|reflexivity]. exact C.
  - destruct (find m ms) as [d|]; [|exact C]. destruct (md_iffy d); [|exact C].
    apply (counts_eq (MkHealth f i b ms q)); [reflexivity| |exact C]. rewrite checks_snoc. cbn. lia.
  - destruct (find m ms) as [[x y [|n]]|]; try exact C. destruct ok; [exact C|].
    apply (counts_eq (MkHealth f i b ms q)); [reflexivity| |exact C].
    change [TryRecover m; WriteBatch m] with ([TryRecover m] ++ [WriteBatch m]). rewrite app_assoc, !checks_snoc. cbn [is_check].
    unfold checks. cbn [h_queue]. lia.
  - destruct q as [|[m|m|] q]; cbn [h_queue].
    + destruct ok; exact C.
    + replace ((if ok then 0 else 0) + k) with k by (destruct ok; reflexivity).
      replace (match (if ok then true else false) with true => 0 | false => 0 end + k) with k by (destruct ok; reflexivity).
      destruct (find m ms) as [d|].
      * destruct (md_iffy d); (apply (counts_eq (MkHealth f i b ms (WriteBatch m :: q))); [reflexivity| |destruct ok; exact C]).
        -- rewrite checks_snoc, checks_cons. reflexivity.
        -- rewrite checks_cons. cbn [is_check]. unfold checks. cbn [h_queue]. lia.
      * apply (counts_eq (MkHealth f i b ms (WriteBatch m :: q))); [reflexivity| |destruct ok; exact C].
        rewrite checks_cons. cbn [is_check]. lia.
    + destruct (find m ms) as [d|].
      * destruct ok.
        -- destruct C as (L & C). split; [apply recovery_lt|]. cbn [h_faults] in *.
           replace (1 + k) with (k + 1) by lia. rewrite recovery_back, C, checks_cons. cbn [is_check].
           unfold checks. cbn [h_queue]. rewrite N.add_0_r. reflexivity.
        -- apply (counts_eq (MkHealth f i b ms (TryRecover m :: q))); [reflexivity| |exact C].
           rewrite checks_snoc, checks_cons. reflexivity.
      * apply (counts_eq (MkHealth f i b ms (TryRecover m :: q))); [reflexivity| |destruct ok; exact C].
        rewrite checks_cons. cbn [is_check]. lia.
    + destruct ok.
      * destruct C as (L & C). split; [apply recovery_lt|]. rewrite checks_cons in C. cbn [is_check h_faults] in *.
        change (checks (MkHealth f i b ms q)) with (checks (MkHealth (report_recovery f) false b ms q)) in C.
        set (c := checks (MkHealth (report_recovery f) false b ms q)) in *.
        unfold report_recovery. rewrite N.add_mod_idemp_l by exact w_pos.
        replace (f + (word - 1) + (0 + k)) with ((f + k) + (word - 1)) by lia.
        rewrite (add_mod_cong (f + k) (c + 1) (word - 1) (word - 1) C eq_refl).
        replace (c + 1 + (word - 1)) with (c + 1 * word) by (assert (1 <= word) by (unfold word; lia); lia).
        apply N.mod_add. exact w_pos.
      * apply (counts_eq (MkHealth f i b ms (CheckGns :: q))); [reflexivity| |exact C].
        rewrite checks_snoc, checks_cons. reflexivity.
  - destruct (find m ms); exact C.
  - destruct (idle ms); exact C.
  - destruct (idle ms); [|exact C]. exact (drops_counts l (MkHealth f i b ms q) k C).
Qed.

Lemma run_counts es : forall h k, counts h k -> counts (run h es) (strays h es + k).
Proof.
  induction es as [|e es IH]; intros h k C; [exact C|]. cbn [strays run fold_left].
  replace (stray h e + strays (step h e) es + k) with (strays (step h e) es + (stray h e + k)) by lia.
  apply IH. apply step_counts. exact C.
Qed.

Lemma boot_counts ms : counts (boot ms) 0.
Proof. split; reflexivity. Qed.

(** C43. After every history the count of faults is the number of pending checks of the system journal
    less the number of drivers of models that came back or were dropped while failed, modulo 2^64. *)
Theorem C43_count ms es : let h := run (boot ms) es in
  (Z.of_N (h_faults h) = (Z.of_N (checks h) - Z.of_N (strays (boot ms) es)) mod Z.of_N word)%Z.
Proof.
  cbv zeta. destruct (run_counts es _ _ (boot_counts ms)) as (L & C). rewrite N.add_0_r in C.
  set (h := run (boot ms) es) in *. set (k := strays (boot ms) es) in *.
  assert (W : (Z.of_N word <> 0)%Z) by discriminate.
  apply (f_equal Z.of_N) in C. rewrite !N2Z.inj_mod, N2Z.inj_add in C by exact w_pos.
  rewrite Zminus_mod, <- C, <- Zminus_mod.
  replace (Z.of_N (h_faults h) + Z.of_N k - Z.of_N k)%Z with (Z.of_N (h_faults h)) by lia.
  symmetry. apply Z.mod_small. split; [lia|]. apply N2Z.inj_lt. exact L.
Qed.

(** C43. So the server calls itself healthy exactly if these numbers agree modulo 2^64. *)
Theorem C43_exact ms es : let h := run (boot ms) es in
  status_okay h = true <-> checks h mod word = strays (boot ms) es mod word.
Proof.
  cbv zeta. destruct (run_counts es _ _ (boot_counts ms)) as (L & C). rewrite N.add_0_r in C.
  unfold status_okay. rewrite N.eqb_eq. split; intros E.
  - rewrite E in C. symmetry. exact C.
  - rewrite E in C. set (f := h_faults (run (boot ms) es)) in *. set (k := strays (boot ms) es) in *.
    assert (W := w_pos). pose proof (N.div_mod k word W) as D.
    rewrite N.add_mod in C by exact W. rewrite (N.mod_small f) in C by exact L.
    pose proof (N.mod_lt k word W) as Q. set (r := k mod word) in *.
    destruct (N.lt_ge_cases (f + r) word) as [A|A].
    + rewrite N.mod_small in C by exact A. lia.
    + exfalso. replace (f + r) with (f + r - word + 1 * word) in C by lia. rewrite N.mod_add in C by exact W.
      rewrite N.mod_small in C by lia. lia.
Qed.

(** * While no batch fails *)
Definition write_fails (e : event) : bool := match e with BatchWrite _ false => true | _ => false end.

Definition no_rec (h : health) : Prop :=
  failed_models h = [] /\ Forall (fun t => match t with TryRecover _ => False | _ => True end) (h_queue h).

Lemma upd_failed m f l : (forall d, md_iffy (f d) = md_iffy d) -> filter md_iffy l = [] -> filter md_iffy (upd m f l) = [].
Proof.
  intros F. induction l as [|d l IH]; [reflexivity|]. cbn [filter upd map]. intros E.
  assert (Q : md_iffy (if md_id d =? m then f d else d) = md_iffy d) by (destruct (md_id d =? m); [apply F|reflexivity]).
  rewrite Q. destruct (md_iffy d); [discriminate E|]. apply IH, E.
Qed.

Lemma drop_failed m l : filter md_iffy l = [] -> filter md_iffy (drop m l) = [].
Proof.
  induction l as [|d l IH]; [reflexivity|]. cbn [drop filter]. intros E. destruct (md_iffy d) eqn:Q; [discriminate E|].
  destruct (md_id d =? m); cbn [negb]; [apply IH, E|]. cbn [filter]. rewrite Q. apply IH, E.
Qed.

Lemma find_failed m l d : filter md_iffy l = [] -> find m l = Some d -> md_iffy d = false.
Proof.
  induction l as [|a l IH]; cbn [find filter]; intros E F; [discriminate F|]. destruct (md_iffy a) eqn:Q; [discriminate E|].
  destruct (md_id a =? m); [injection F as ->; exact Q | exact (IH E F)].
Qed.

Lemma dropped_none ms : forall l, filter md_iffy l = [] -> dropped_failed ms l = 0.
Proof.
  induction ms as [|m ms IH]; intros l E; [reflexivity|]. cbn [dropped_failed]. destruct (find m l) as [d|] eqn:F.
  - rewrite (find_failed _ _ _ E F), (IH _ (drop_failed m l E)). reflexivity.
  - exact (IH l E).
Qed.

Lemma drops_no_rec ms : forall h, no_rec h -> no_rec (fold_left (fun a m => drop_faulty m a) ms h).
Proof.
  induction ms as [|m ms IH]; intros h (A & B); cbn [fold_left]; [split; assumption|]. apply IH. split.
  - unfold failed_models. rewrite drop_faulty_models. destruct (find m (h_models h)); [apply drop_failed|]; exact A.
  - unfold drop_faulty. destruct (find m (h_models h)); exact B.
Qed.

Lemma step_no_rec h e : no_rec h -> write_fails e = false -> no_rec (step h e) /\ stray h e = 0.
Proof.
  intros N W. pose proof N as (A & B). destruct h as [f i b ms q]. unfold no_rec, failed_models in *. cbn [h_models h_queue] in A, B.
  assert (SN : forall t, match t with TryRecover _ => False | _ => True end -> Forall (fun t => match t with TryRecover _ => False | _ => True end) (q ++ [t])).
  { intros t T. apply Forall_app. split; [exact B|]. constructor; [exact T|constructor]. }
  destruct e as [|ok|m|m ok|ok|m|m|l]; cbn [step stray h_faults h_iffy h_busy h_models h_queue] in *.
  - destruct i; auto.
  - destruct b as [|b]; [auto|]. destruct ok; [auto|]. cbn [h_models h_queue]. repeat split; [exact A|]. apply SN. exact I.
  - destruct (find m ms) as [d|]; [|auto]. destruct (md_iffy d); cbn [h_models h_queue]; repeat split.
    + exact A.
    + apply SN. exact I.
    + apply upd_failed; [reflexivity|exact A].
    + exact B.
  - destruct (find m ms) as [[x y [|n]]|]; try (auto; fail). destruct ok; [|discriminate W]. cbn [h_models h_queue]. repeat split; [|exact B].
    apply upd_failed; [reflexivity|exact A].
  - destruct q as [|t q]; [destruct ok; cbn [h_models h_queue]; auto|]. pose proof (Forall_inv B) as T. pose proof (Forall_inv_tail B) as B'.
    assert (SN' : forall t, match t with TryRecover _ => False | _ => True end -> Forall (fun t => match t with TryRecover _ => False | _ => True end) (q ++ [t])).
    { intros t' T'. apply Forall_app. split; [exact B'|]. constructor; [exact T'|constructor]. }
    destruct t as [m|m|]; [|destruct T|].
    + split; [|destruct ok; reflexivity]. destruct (find m ms) as [d|]; [destruct (md_iffy d)|]; cbn [h_models h_queue]; split.
      * exact A.
      * apply SN'. exact I.
      * apply upd_failed; [reflexivity|exact A].
      * exact B'.
      * exact A.
      * exact B'.
    + split; [|destruct ok; reflexivity]. destruct ok; cbn [h_models h_queue]; split; try exact A; [exact B'|]. apply SN'. exact I.
  - destruct (find m ms); cbn [h_models h_queue]; repeat split; try assumption. rewrite filter_app, A. reflexivity.
  - destruct (idle ms); cbn [h_models h_queue]; repeat split; try assumption. apply drop_failed, A.
  - destruct (idle ms); [|auto]. split; [|apply dropped_none, A]. exact (drops_no_rec l (MkHealth f i b ms q) N).
Qed.

Lemma run_no_rec es : forall h, no_rec h -> forallb (fun e => negb (write_fails e)) es = true -> no_rec (run h es) /\ strays h es = 0.
Proof.
  induction es as [|e es IH]; intros h N W; [auto|]. cbn [forallb] in W. apply andb_true_iff in W. destruct W as (W & W').
  apply negb_true_iff in W. destruct (step_no_rec h e N W) as (N' & S). cbn [run fold_left strays]. rewrite S.
  exact (IH _ N' W').
Qed.

Lemma boot_no_rec ms : no_rec (boot ms).
Proof.
  split; [|constructor]. unfold failed_models, boot. cbn [h_models]. induction ms as [|m ms IH]; [reflexivity|]. cbn. exact IH.
Qed.

(** a failed journal is due to be checked *)
Definition watched (h : health) : Prop := h_iffy h = true -> In CheckGns (h_queue h).

Lemma drops_rest ms : forall h, h_iffy (fold_left (fun a m => drop_faulty m a) ms h) = h_iffy h /\
  h_queue (fold_left (fun a m => drop_faulty m a) ms h) = h_queue h /\
  h_busy (fold_left (fun a m => drop_faulty m a) ms h) = h_busy h.
Proof.
  induction ms as [|m ms IH]; intros h; [auto|]. cbn [fold_left]. destruct (IH (drop_faulty m h)) as (A & B & C). rewrite A, B, C.
  unfold drop_faulty. destruct (find m (h_models h)); auto.
Qed.

Lemma step_watched h e : watched h -> watched (step h e).
Proof.
  intros W. destruct h as [f i b ms q]. unfold watched in *. cbn [h_iffy h_queue] in W.
  destruct e as [|ok|m|m ok|ok|m|m|l]; cbn [step h_faults h_iffy h_busy h_models h_queue].
  - destruct i; exact W.
  - destruct b as [|b]; [exact W|]. destruct ok; [exact W|]. cbn [h_iffy h_queue]. intros _. apply in_or_app. right. left. reflexivity.
  - destruct (find m ms) as [d|]; [|exact W]. destruct (md_iffy d); [|exact W]. cbn [h_iffy h_queue]. intros I. apply in_or_app. left. exact (W I).
  - destruct (find m ms) as [[x y [|n]]|]; try exact W. destruct ok; [exact W|]. cbn [h_iffy h_queue]. intros I. apply in_or_app. left. exact (W I).
  - destruct q as [|[m|m|] q]; [exact W| | |].
    + destruct (find m ms) as [d|]; [destruct (md_iffy d)|]; cbn [h_iffy h_queue]; intros I; destruct (W I) as [Q|Q]; try discriminate Q; try exact Q.
      apply in_or_app. left. exact Q.
    + destruct (find m ms) as [d|]; [destruct ok|]; cbn [h_iffy h_queue]; intros I; destruct (W I) as [Q|Q]; try discriminate Q; try exact Q.
      apply in_or_app. left. exact Q.
    + destruct ok; cbn [h_iffy h_queue]; [discriminate|]. intros I. apply in_or_app. right. left. reflexivity.
  - destruct (find m ms); exact W.
  - destruct (idle ms); exact W.
  - destruct (idle ms); [|exact W]. destruct (drops_rest l (MkHealth f i b ms q)) as (A & B & _). rewrite A, B. exact W.
Qed.

Lemma run_watched es : forall h, watched h -> watched (run h es).
Proof. induction es as [|e es IH]; intros h W; [exact W|]. apply IH, step_watched, W. Qed.

Lemma checks_in h : In CheckGns (h_queue h) -> 0 < checks h.
Proof.
  intros I. unfold checks. assert (Q : In CheckGns (filter is_check (h_queue h))) by (apply filter_In; auto).
  destruct (filter is_check (h_queue h)); [destruct Q|]. cbn [length]. lia.
Qed.

(** C43 (partial: histories in which no batch write fails; any interleaving). A server that calls itself
    healthy has no failed driver, and one without pending checks of the journal calls itself healthy. *)
Theorem C43_partial ms es : forallb (fun e => negb (write_fails e)) es = true ->
  let h := run (boot ms) es in checks h < word ->
  (status_okay h = true <-> ~ In CheckGns (h_queue h)) /\ (status_okay h = true -> ~ some_failed h).
Proof.
  intros W h B. destruct (run_no_rec es _ (boot_no_rec ms) W) as ((N & _) & S). fold h in N.
  assert (E : status_okay h = true <-> checks h = 0).
  { unfold h. rewrite (C43_exact ms es), S. fold h. rewrite N.mod_small by exact B. reflexivity. }
  assert (K : checks h = 0 <-> ~ In CheckGns (h_queue h)).
  { split.
    - intros Z I. apply checks_in in I. lia.
    - intros I. unfold checks. destruct (filter is_check (h_queue h)) as [|t r] eqn:F; [reflexivity|]. destruct I.
      assert (Q : In t (filter is_check (h_queue h))) by (rewrite F; left; reflexivity). apply filter_In in Q. destruct Q as (Q & T).
      destruct t; try discriminate T. exact Q. }
  split; [rewrite E; exact K|]. intros O. apply E, K in O. intros [F|F]; [|exact (F N)].
  apply O. unfold h. apply run_watched; [|exact F]. intros Q. discriminate Q.
Qed.

(** statements one after the other: each looks at the status and commits before the next *)
Inductive act : Type := AStmt (ok : bool) | AOther (e : event).
Definition events (a : act) : list event := match a with AStmt ok => [StmtCheck; StmtCommit ok] | AOther e => [e] end.
Definition one_by_one (a : act) : bool :=
  match a with AOther (StmtCheck | StmtCommit _) => false | AOther e => negb (write_fails e) | AStmt _ => true end.

(** what holds then: no statement is under way, and a check is pending only if the journal is failed,
    and only one *)
Definition single (h : health) : Prop := h_busy h = O /\ checks h = if h_iffy h then 1 else 0.

Lemma step_single h e : one_by_one (AOther e) = true -> single h -> single (step h e).
Proof.
  intros O (Z & C). destruct h as [f i b ms q]. cbn [h_busy h_iffy] in Z, C. subst b. unfold single.
  destruct e as [|ok|m|m ok|ok|m|m|l]; cbn [one_by_one] in O; try discriminate O; cbn [step h_faults h_iffy h_busy h_models h_queue].
  - destruct (find m ms) as [d|]; [|auto]. destruct (md_iffy d); [|auto]. cbn [h_busy h_iffy]. rewrite checks_snoc, N.add_0_r. auto.
  - destruct (find m ms) as [[x y [|n]]|]; try (auto; fail). destruct ok; [auto|discriminate O].
  - destruct q as [|t q]; [auto|]. rewrite checks_cons in C. destruct t as [m|m|]; cbn [is_check] in C; rewrite ?N.add_0_r in C.
    + destruct (find m ms) as [d|]; [destruct (md_iffy d)|]; cbn [h_busy h_iffy]; auto. rewrite checks_snoc, N.add_0_r. auto.
    + destruct (find m ms) as [d|]; [destruct ok|]; cbn [h_busy h_iffy]; auto. rewrite checks_snoc, N.add_0_r. auto.
    + assert (Q : i = true) by (destruct i; [reflexivity|lia]). subst i. destruct ok; cbn [h_busy h_iffy].
      * split; [reflexivity|]. change (checks (MkHealth f true 0 ms q) = 0). lia.
      * rewrite checks_snoc. auto.
  - destruct (find m ms); auto.
  - destruct (idle ms); auto.
  - destruct (idle ms); [|auto]. destruct (drops_rest l (MkHealth f i 0 ms q)) as (A & B & D). unfold checks. rewrite A, B, D. auto.
Qed.

Lemma stmt_single h ok : single h -> single (step (step h StmtCheck) (StmtCommit ok)).
Proof.
  intros (Z & C). destruct h as [f i b ms q]. cbn [h_busy h_iffy] in Z, C. subst b. destruct i; cbn [step h_faults h_iffy h_busy h_models h_queue].
  - split; auto.
  - destruct ok; cbn [h_busy h_iffy]; [split; auto|]. split; [reflexivity|]. rewrite checks_snoc. cbn [is_check h_iffy].
    unfold checks in *. cbn [h_queue h_iffy] in *. lia.
Qed.

Lemma acts_single l : forall h, forallb one_by_one l = true -> single h -> single (run h (flat_map events l)).
Proof.
  induction l as [|a l IH]; intros h O S; [exact S|]. cbn [forallb] in O. apply andb_true_iff in O. destruct O as (O & O').
  destruct a as [ok|e]; cbn [flat_map events app run fold_left].
  - apply (IH _ O'). apply stmt_single, S.
  - apply (IH _ O'). apply step_single; assumption.
Qed.

Lemma acts_writes l : forallb one_by_one l = true -> forallb (fun e => negb (write_fails e)) (flat_map events l) = true.
Proof.
  induction l as [|a l IH]; [reflexivity|]. cbn [forallb flat_map]. intros O. apply andb_true_iff in O. destruct O as (O & O').
  rewrite forallb_app, (IH O'), andb_true_r. destruct a as [ok|e]; [reflexivity|]. cbn [events forallb]. rewrite andb_true_r.
  destruct e; cbn in O |- *; try reflexivity; try discriminate O. exact O.
Qed.

(** C43 (partial: no batch write fails, and statements that change the system journal do not overlap).
    The reported status is accurate after every history. *)
Theorem C43_sequential_partial ms l : forallb one_by_one l = true -> accurate (run (boot ms) (flat_map events l)).
Proof.
  intros O. assert (S : single (run (boot ms) (flat_map events l))) by (apply acts_single; [exact O|split; reflexivity]).
  destruct S as (_ & C). pose proof (acts_writes l O) as W. destruct (run_no_rec _ _ (boot_no_rec ms) W) as ((N & _) & S).
  pose proof (C43_exact ms (flat_map events l)) as E. cbv zeta in E. rewrite S, C in E. unfold accurate. rewrite E.
  destruct (h_iffy (run (boot ms) (flat_map events l))) eqn:I.
  - split; [intros H; discriminate H|]. intros H. destruct H. left. exact I.
  - split; [|reflexivity]. intros _ [H|H]; [congruence|exact (H N)].
Qed.

(** * What is false *)
(** C43. A failure of the driver of a model is not reported: the status is as before. *)
Theorem C43_model_failure_unreported h m d : find m (h_models h) = Some d -> (0 < md_busy d)%nat ->
  status_okay (step h (BatchWrite m false)) = status_okay h /\
  exists d', find m (h_models (step h (BatchWrite m false))) = Some d' /\ md_iffy d' = true.
Proof.
  intros F B. destruct h as [f i b ms q]. cbn [step h_models h_faults h_iffy h_busy h_queue] in *. rewrite F.
  destruct d as [x y [|n]]; [cbn in B; lia|]. split; [reflexivity|]. cbn [h_models]. clear B.
  induction ms as [|a ms IH]; cbn [find] in F; [discriminate F|]. cbn [upd map]. destruct (md_id a =? m) eqn:E.
  - cbn [find md_id]. rewrite E. eexists. split; reflexivity.
  - cbn [find]. rewrite E. exact (IH F).
Qed.

(** C43. Once drivers of models have recovered (fewer than 2^64 times) the server never calls itself
    healthy again while its journal has no fault pending, though no driver is failed. *)
Theorem C43_unhealthy_for_ever ms es es' :
  0 < strays (boot ms) es -> strays (boot ms) (es ++ es') < word ->
  ~ In CheckGns (h_queue (run (boot ms) (es ++ es'))) ->
  status_okay (run (boot ms) (es ++ es')) = false.
Proof.
  intros P B N. destruct (status_okay (run (boot ms) (es ++ es'))) eqn:S; [|reflexivity]. exfalso. apply C43_exact in S.
  assert (K : checks (run (boot ms) (es ++ es')) = 0).
  { unfold checks. destruct (filter is_check _) as [|t r] eqn:F; [reflexivity|]. destruct N.
    assert (Q : In t (filter is_check (h_queue (run (boot ms) (es ++ es'))))) by (rewrite F; left; reflexivity). apply filter_In in Q.
    destruct Q as (Q & T). destruct t; try discriminate T. exact Q. }
  rewrite K in S. rewrite (N.mod_small (strays _ _)) in S by exact B. change (0 mod word) with 0 in S.
  assert (M : forall l h, strays h (l ++ es') = strays h l + strays (run h l) es').
  { induction l as [|e l IH]; intros h; [reflexivity|]. cbn [app strays run fold_left]. rewrite IH. unfold run. lia. }
  rewrite M in S. lia.
Qed.

Definition fails : list event := [BatchCheck 7; BatchWrite 7 false].
Definition recovers : list event := fails ++ [RunTask true].
Definition then_journal_fails : list event := recovers ++ [StmtCheck; StmtCommit false].

(** C43 is false: (1) the driver of a model is failed and the status is healthy; (2) nothing is failed
    and the status is unhealthy; (3) after (2) the system journal fails and the status is healthy. *)
Theorem C43_refuted :
  (exists es, some_failed (run (boot [7]) es) /\ status_okay (run (boot [7]) es) = true) /\
  (exists es, ~ some_failed (run (boot [7]) es) /\ status_okay (run (boot [7]) es) = false) /\
  (exists es, h_iffy (run (boot [7]) es) = true /\ status_okay (run (boot [7]) es) = true).
Proof.
  split; [|split].
  - exists fails. split; [right; vm_compute; discriminate|vm_compute; reflexivity].
  - exists recovers. split; [|vm_compute; reflexivity]. intros [H|H]; [vm_compute in H; discriminate H|]. apply H. vm_compute. reflexivity.
  - exists then_journal_fails. split; vm_compute; reflexivity.
Qed.

(** cases that meet the hypotheses *)
Definition busy_day : list act :=
  [AStmt true; AOther (CreateModel 9); AStmt false; AStmt true; AOther (BatchCheck 9); AOther (BatchWrite 9 true); AOther (RunTask false)].
Example C43_sequential_case : forallb one_by_one busy_day = true /\
  status_okay (run (boot [7]) (flat_map events busy_day)) = false /\
  status_okay (run (boot [7]) (flat_map events (busy_day ++ [AOther (RunTask true)]))) = true.
Proof. repeat split; vm_compute; reflexivity. Qed.
(** two statements at once fail both: the first check brings the journal back, the status is healthy only after the
    second *)
Example C43_partial_case : let es := [StmtCheck; StmtCheck; StmtCommit false; StmtCommit false; RunTask true] in
  forallb (fun e => negb (write_fails e)) es = true /\ checks (run (boot []) es) = 1 /\ h_iffy (run (boot []) es) = false /\
  status_okay (run (boot []) es) = false /\ status_okay (run (boot []) (es ++ [RunTask true])) = true.
Proof. repeat split; vm_compute; reflexivity. Qed.
Example C43_for_ever_case : 0 < strays (boot [7]) recovers /\ strays (boot [7]) (recovers ++ [RunTask true; BatchWrite 7 true]) < word /\
  ~ In CheckGns (h_queue (run (boot [7]) (recovers ++ [RunTask true; BatchWrite 7 true]))).
Proof. repeat split; try (vm_compute; reflexivity). vm_compute. intros []. Qed.
(** a failed model dropped with its space, before its recovery *)
Example C43_count_case : strays (boot [7; 8]) (fails ++ [DropSpace [8; 7]; RunTask true]) = 1 /\
  h_faults (run (boot [7; 8]) (fails ++ [DropSpace [8; 7]; RunTask true])) = word - 1.
Proof. split; vm_compute; reflexivity. Qed.
Example C43_unreported_case : exists d, find 7 (h_models (run (boot [7]) [BatchCheck 7])) = Some d /\ (0 < md_busy d)%nat.
Proof. eexists. split; [vm_compute; reflexivity|]. cbn. lia. Qed.

Print Assumptions C43_count.
Print Assumptions C43_exact.
Print Assumptions C43_partial.
Print Assumptions C43_sequential_partial.
Print Assumptions C43_model_failure_unreported.
Print Assumptions C43_unhealthy_for_ever.
Print Assumptions C43_refuted.
