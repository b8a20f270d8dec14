(** C105, C106, C107: the engines of sky-bench. *)
From Coq Require Import List Arith NArith Bool Lia Permutation.
From Verif Require Import BenchModel BenchSpec BenchProofs.
Import ListNotations.
Open Scope N_scope.

Lemma in_keys : forall c x, In x (keys c) <-> 1 <= x <= c.
Proof.
  intros c x. unfold keys. rewrite in_map_iff. split.
  - intros [y [E I]]. apply in_seq in I. lia.
  - intro H. exists (N.to_nat x). split; [lia|]. apply in_seq. lia.
Qed.
Lemma nodup_keys : forall c, NoDup (keys c).
Proof.
  intro c. unfold keys. apply FinFun.Injective_map_NoDup; [|apply seq_NoDup]. intros a b H. lia.
Qed.
Lemma mine_by : forall k i lg, by_worker k i lg = mine k i lg.
Proof.
  intros k i lg. unfold by_worker, of_ph, mine. induction lg as [|e r IH]; [reflexivity|]. cbn [filter].
  destruct (Nat.eqb (e_ph e) k); cbn [andb filter]; [destruct (Nat.eqb (e_w e) i); rewrite IH; reflexivity|exact IH].
Qed.
Lemma together_busy : forall l, together l = busy l.
Proof. induction l as [|e r IH]; [reflexivity|]. cbn [busy]. rewrite <- IH. reflexivity. Qed.

(** ---- C105 ---- *)
(** no key is used twice in a phase, whatever has happened so far, also after bad answers *)
Theorem C105_never_twice : forall rookie n t cs ls s k, (0 < n)%nat -> run rookie n (init t cs) ls = Some s ->
  NoDup (map e_pos (of_ph k (log s))) /\
  forall c x, nth_error cs k = Some c -> In x (map e_pos (of_ph k (log s))) -> 1 <= x <= c.
Proof.
  intros rookie n t cs ls s k NP R. destruct (reach rookie n NP t cs ls s R) as [[HA [HZ [HK HH]]] _].
  destruct (h_counts _ _ _ HH) as [dn [A [B C]]].
  assert (KEYS : (k < phase s)%nat \/ (k = phase s /\ running s) \/ of_ph k (log s) = []).
  { destruct (Nat.lt_trichotomy k (phase s)) as [L|[L|L]]; auto.
    - right. unfold running. destruct (main s) eqn:M; eauto; right; subst k;
        (apply of_phase_none; intros e I; assert (X := h_lt _ _ _ HH e I ltac:(rewrite M; auto)); lia).
    - right. right. apply of_phase_none. intros e I. assert (X := h_le _ _ _ HH e I). lia. }
  destruct KEYS as [L|[[L RN]|L]].
  - destruct (nth_error dn k) as [c|] eqn:E; [|apply nth_error_None in E; lia].
    specialize (C k c E). split.
    + eapply Permutation_NoDup; [symmetry; exact C|apply nodup_keys].
    + intros c' x NE I. rewrite A, nth_error_app1 in NE by lia. rewrite E in NE. injection NE as <-.
      apply in_keys. eapply Permutation_in; [exact C|exact I].
  - destruct (HK RN) as [lost [Q _]]. subst k.
    assert (ND : NoDup (keys (target s) ++ holding n (ws s) ++ map e_pos (of_ph (phase s) (log s)) ++ lost)).
    { eapply Permutation_NoDup; [symmetry; exact Q|apply nodup_keys]. }
    split.
    + clear - ND. induction (keys (target s)) as [|a r IH]; [|inversion ND; auto]. cbn [app] in ND.
      induction (holding n (ws s)) as [|a r IH]; [|inversion ND; auto]. cbn [app] in ND.
      clear - ND. induction (map e_pos (of_ph (phase s) (log s))) as [|a r IH]; [constructor|]. inversion ND; subst.
      constructor; [|auto]. intro X. apply H1. apply in_or_app. auto.
    + intros c x NE I. apply in_keys.
      assert (CC : c = cur s).
      { assert (MM : match main s with MNext | MOk => todo s | _ => cur s :: todo s end = cur s :: todo s).
        { destruct RN as [[f M]|M]; rewrite M; reflexivity. }
        rewrite MM in A. rewrite A, nth_error_app2 in NE by lia. rewrite <- B, Nat.sub_diag in NE. injection NE as <-. reflexivity. }
      subst c. eapply Permutation_in; [exact Q|]. apply in_or_app. right. apply in_or_app. right. apply in_or_app. left. exact I.
  - rewrite L. split; [constructor|]. intros c x _ [].
Qed.

(** a phase starts when all queries of those before it are over *)
Theorem C105_in_order : forall rookie n t cs ls s e f, (0 < n)%nat -> run rookie n (init t cs) ls = Some s ->
  In e (log s) -> In f (log s) -> (e_ph e < e_ph f)%nat -> e_t1 e <= e_t0 f.
Proof.
  intros rookie n t cs ls s e f NP R. destruct (reach rookie n NP t cs ls s R) as [[HA [HZ [HK HH]]] _]. apply (t_order _ _ _ HH).
Qed.

(** when the benchmark ends well, every key was used exactly once in every phase and every answer was good *)
Theorem C105_each_once : forall rookie n t cs ls s k c, (0 < n)%nat -> run rookie n (init t cs) ls = Some s ->
  main s = MOk -> nth_error cs k = Some c -> each_once k c (log s).
Proof.
  intros rookie n t cs ls s k c NP R M NE. destruct (reach rookie n NP t cs ls s R) as [[HA [HZ [HK HH]]] _].
  destruct (h_counts _ _ _ HH) as [dn [A [B C]]]. rewrite M in A. destruct (a_ok _ _ HA M) as [_ [ID [OK TD]]].
  rewrite TD, app_nil_r in A. subst dn. specialize (C k c NE). change (of_phase k (log s)) with (of_ph k (log s)) in C.
  split; [|split].
  - eapply Permutation_NoDup; [symmetry; exact C|apply nodup_keys].
  - intro x. rewrite <- in_keys. split; intro I; (eapply Permutation_in; [|exact I]); [exact C|symmetry; exact C].
  - intros e I. apply filter_In in I. destruct I as [I _]. destruct (e_ok e) eqn:EO; [reflexivity|].
    destruct (h_bad _ _ _ HH e I EO) as [X|[i [L X]]]; [congruence|]. rewrite (ID i L) in X. discriminate X.
Qed.

(** ... and a bad answer never leaves a benchmark that ends well *)
Theorem C105_bad_answer : forall rookie n t cs ls s e, (0 < n)%nat -> run rookie n (init t cs) ls = Some s ->
  In e (log s) -> e_ok e = false -> main s <> MOk /\ main s <> MNext.
Proof.
  intros rookie n t cs ls s e NP R I EO. destruct (reach rookie n NP t cs ls s R) as [[HA [HZ [HK HH]]] _].
  destruct (h_bad _ _ _ HH e I EO) as [X|[i [L X]]]; split; intro M.
  - destruct (a_ok _ _ HA M) as [_ [_ [O _]]]. congruence.
  - destruct (a_next _ _ HA M) as [_ [_ O]]. congruence.
  - destruct (a_ok _ _ HA M) as [_ [ID _]]. rewrite (ID i L) in X. discriminate X.
  - destruct (a_next _ _ HA M) as [_ [ID _]]. rewrite (ID i L) in X. discriminate X.
Qed.

(** With fewer queries than workers in a phase, the benchmark never ends well *)
Theorem C105_too_few : forall rookie n t cs ls s k c, (0 < n)%nat -> run rookie n (init t cs) ls = Some s ->
  nth_error cs k = Some c -> c < N.of_nat n -> main s <> MOk.
Proof.
  intros rookie n t cs ls s k c NP R NE LT M. destruct (reach rookie n NP t cs ls s R) as [[HA [HZ [HK HH]]] HF].
  destruct (h_counts _ _ _ HH) as [dn [A [B C]]]. rewrite M in A. destruct (a_ok _ _ HA M) as [_ [ID [OK TD]]].
  rewrite TD, app_nil_r in A. subst dn. specialize (C k c NE).
  assert (KL : (k < length (stats s))%nat).
  { rewrite (f_len _ _ _ HF), <- B. apply nth_error_Some. congruence. }
  destruct (nth_error (stats s) k) as [st|] eqn:ST; [|apply nth_error_None in ST; lia].
  destruct (f_stats _ _ _ HF k st ST) as [[SM _] _].
  assert (LE : (length (seq 0 n) <= length (map e_w (of_phase k (log s))))%nat).
  { apply NoDup_incl_length; [apply seq_NoDup|]. intros i I. apply in_seq in I. specialize (SM i ltac:(lia)).
    destruct (mine k i (log s)) as [|e r] eqn:E; [contradiction|]. assert (J : In e (mine k i (log s))) by (rewrite E; left; reflexivity).
    apply in_mine in J. destruct J as [J1 [J2 J3]]. apply in_map_iff. exists e. split; [exact J3|]. apply in_phase. auto. }
  apply Permutation_length in C. unfold keys in C. rewrite !map_length, seq_length in C. rewrite seq_length, map_length in LE. lia.
Qed.

(** Every benchmark comes to a standstill after a bounded number of steps ... *)
Theorem C105_bounded : forall rookie n t cs ls s, (0 < n)%nat -> run rookie n (init t cs) ls = Some s ->
  N.of_nat (length (filter is_move ls)) <= at_most n cs.
Proof.
  intros rookie n t cs ls s NP R.
  assert (Z : InvZ n (init t cs)) by (destruct (inv_init n t cs) as [_ [Z _]]; exact Z).
  pose proof (moves_bounded rookie n NP ls _ _ Z R) as H. change (moves ls) with (N.of_nat (length (filter is_move ls))) in H.
  assert (ME : measure n (init t cs) <= at_most n cs); [|lia].
  unfold measure, at_most. cbn [init todo target ws chan main length]. unfold costs, cost, ranks.
  assert (R0 : forall l, fold_right (fun i a => rank 0 (wpc (fresh PIdle)) + a) 0 (l : list nat) = 0) by (induction l as [|x r IH]; cbn in *; lia).
  rewrite (R0 (seq 0 n)). lia.
Qed.

(** ... and if the server answers everything well, it then has come to its end, or a worker has panicked. *)
Theorem C105_finishes_partial : forall rookie n t cs ls s, (0 < n)%nat -> (forall c, In c cs -> c <> 0) ->
  Forall answers ls -> run rookie n (init t cs) ls = Some s -> stuck rookie n s ->
  main s = MOk \/ exists i, (i < n)%nat /\ wpc (ws s i) = PDead.
Proof.
  intros rookie n t cs ls s NP PC G R SK. destruct (reach rookie n NP t cs ls s R) as [HI HF].
  destruct (reach_good rookie n NP cs ls (init t cs) s PC (inv_init n t cs) (invF_init n t cs) (invG_init n t cs) G R) as [_ [_ HG]].
  destruct (existsb (fun i => is_dead (wpc (ws s i))) (seq 0 n)) eqn:EX.
  - right. apply existsb_exists in EX. destruct EX as [i [I D]]. exists i. apply in_seq in I. split; [lia|].
    destruct (wpc (ws s i)); try discriminate D. reflexivity.
  - left. apply (progress rookie n NP cs s PC HI HG).
    + intros i L D. assert (X : existsb (fun i => is_dead (wpc (ws s i))) (seq 0 n) = true).
      { apply existsb_exists. exists i. split; [apply in_seq; lia|]. rewrite D. reflexivity. }
      congruence.
    + intros l GL NT. apply SK; [exact GL|]. destruct l as [d| |]; auto. elim (NT d). reflexivity.
Qed.

(** A panicked worker: the benchmark hangs for ever. *)
Theorem C105_dead_forever : forall rookie n t cs ls s i, (0 < n)%nat -> (forall c, In c cs -> c <> 0) ->
  Forall answers ls -> run rookie n (init t cs) ls = Some s -> (i < n)%nat -> wpc (ws s i) = PDead ->
  forall ls' s', Forall answers ls' -> run rookie n s ls' = Some s' -> exists from, main s' = MWait from.
Proof.
  intros rookie n t cs ls s i NP PC G R L D ls' s' G' R'.
  destruct (reach_good rookie n NP cs ls (init t cs) s PC (inv_init n t cs) (invF_init n t cs) (invG_init n t cs) G R) as [HI [HF HG]].
  assert (D' := dead_run rookie n NP cs ls' s s' i HI L D R').
  destruct (reach_good rookie n NP cs ls' s s' PC HI HF HG G' R') as [[HA _] [_ HG']].
  destruct (main s') as [|from| |] eqn:M.
  - destruct (a_next _ _ HA M) as [_ [X _]]. rewrite (X i L) in D'. discriminate D'.
  - eauto.
  - destruct (a_ok _ _ HA M) as [_ [X _]]. rewrite (X i L) in D'. discriminate D'.
  - elim (g_main _ _ HG' M).
Qed.

(** With two or more workers this can happen to every benchmark, however many queries it has: one worker is fast enough to take them all. *)
Theorem C105_can_hang : forall rookie n t c cs, (1 < n)%nat -> (forall x, In x (c :: cs) -> x <> 0) -> exists ls s,
  Forall answers ls /\ run rookie n (init t (c :: cs)) ls = Some s /\
  forall ls' s', Forall answers ls' -> run rookie n s ls' = Some s' -> exists from, main s' = MWait from.
Proof.
  intros rookie n t c cs N2 PC. destruct (somebody_panics rookie n t c cs N2) as [ls [s [G [R D]]]].
  exists ls, s. split; [exact G|]. split; [exact R|]. intros ls' s'. apply (C105_dead_forever rookie n t (c :: cs) ls s 1%nat); auto; lia.
Qed.

(** two workers, one row *)
Definition one_row : list lab := [MS; WS 0 true; WS 1 true; WS 0 true; WS 0 true; WS 0 true; Tick 5; WS 0 true; WS 0 true; WS 0 true; WS 0 true; MS; WS 1 true; WS 1 true].
Theorem C105_refuted : exists s, Forall answers one_row /\ run true 2 (init 100 [1; 1; 1; 1]) one_row = Some s /\
  stuck true 2 s /\ main s = MWait [0%nat] /\ length (log s) = 1%nat.
Proof.
  eexists. split; [repeat constructor|]. split; [vm_compute; reflexivity|]. split; [|split; reflexivity].
  intros l _ MV. destruct l as [d|i g|]; [discriminate MV| |reflexivity].
  unfold step. destruct i as [|[|i]]; reflexivity.
Qed.

(** two workers, two phases of two queries, each worker takes one: a complete run of each engine *)
Definition rookie_phase : list lab :=
  [MS; WS 0 true; WS 0 true; WS 0 true; WS 0 true; WS 1 true; WS 1 true; WS 1 true; WS 1 true; Tick 5; WS 0 true; Tick 2; WS 1 true;
   WS 0 true; WS 0 true; WS 0 true; WS 1 true; WS 1 true; WS 1 true; MS; MS].
Definition fury_phase : list lab :=
  [MS; WS 0 true; WS 1 true; WS 0 true; WS 1 true; WS 0 true; WS 1 true; WS 1 true; WS 0 true; WS 0 true; WS 1 true; WS 1 true; Tick 5; WS 0 true; Tick 2; WS 1 true;
   WS 0 true; WS 0 true; WS 0 true; WS 1 true; WS 1 true; WS 1 true; MS; MS].
Example C105_complete : exists s, run true 2 (init 100 [2; 2]) (rookie_phase ++ rookie_phase ++ [MS]) = Some s /\ main s = MOk /\
  map e_pos (log s) = [2; 1; 2; 1] /\ stats s = [St 2 7 5 7; St 2 7 5 7].
Proof. eexists. split; [vm_compute; reflexivity|]. vm_compute. auto. Qed.
Example C105_complete_fury : exists s, run false 2 (init 100 [2; 2]) (fury_phase ++ fury_phase ++ [MS]) = Some s /\ main s = MOk /\
  map e_pos (log s) = [2; 1; 2; 1] /\ stats s = [St 2 7 5 7; St 2 7 5 7].
Proof. eexists. split; [vm_compute; reflexivity|]. vm_compute. auto. Qed.
Example C105_failed : exists s, run true 2 (init 100 [2]) [MS; WS 0 true; WS 0 true; WS 0 true; WS 0 true; Tick 1; WS 0 false; WS 0 false; WS 0 false; MS] = Some s /\
  main s = MFail /\ map e_ok (log s) = [false].
Proof. eexists. split; [vm_compute; reflexivity|]. vm_compute. auto. Qed.

(** ---- C106 ---- *)
Lemma phase_worker : forall n cs s k e, InvH n cs s -> In e (of_ph k (log s)) -> (e_w e < n)%nat /\ In e (mine k (e_w e) (log s)).
Proof.
  intros n cs s k e HH I. apply filter_In in I. destruct I as [I E]. apply Nat.eqb_eq in E. split; [eapply h_w; eauto|]. apply in_mine. auto.
Qed.
Lemma mine_phase : forall k i lg e, In e (mine k i lg) -> In e (of_ph k lg).
Proof. intros k i lg e I. apply in_mine in I. apply filter_In. rewrite Nat.eqb_eq. tauto. Qed.
Lemma first_in : forall l, l <> [] -> exists e, In e l /\ e_t0 e = first l.
Proof. intros [|e r] H; [contradiction|]. exists e. split; [left; reflexivity|reflexivity]. Qed.

(** number of queries, fastest and slowest one: as measured, in every phase reported *)
Theorem C106_extremes : forall rookie n t cs ls s k st, (0 < n)%nat -> run rookie n (init t cs) ls = Some s ->
  nth_error (stats s) k = Some st -> now s <= u128_max ->
  nth_error cs k = Some (s_count st) /\ s_count st = N.of_nat (length (of_ph k (log s))) /\
  smallest took (of_ph k (log s)) (s_head st) /\ largest took (of_ph k (log s)) (s_tail st).
Proof.
  intros rookie n t cs ls s k st NP R ST NW. destruct (reach rookie n NP t cs ls s R) as [[HA [HZ [HK HH]]] HF].
  destruct (f_stats _ _ _ HF k st ST) as [[SM [[L1 L2] [[H1 H2] _]]] CN].
  split; [exact CN|]. split.
  { destruct (h_counts _ _ _ HH) as [dn [A [B C]]].
    assert (KL : (k < length dn)%nat) by (rewrite B, <- (f_len _ _ _ HF); apply nth_error_Some; congruence).
    rewrite A, nth_error_app1 in CN by exact KL. specialize (C k _ CN). apply Permutation_length in C.
    unfold keys in C. rewrite !map_length, seq_length in C. change (of_ph k (log s)) with (of_phase k (log s)). rewrite C. lia. }
  assert (SOME : exists e, In e (of_ph k (log s))).
  { specialize (SM 0%nat NP). destruct (first_in _ SM) as [e [I _]]. exists e. eapply mine_phase; eauto. }
  destruct SOME as [e0 I0]. split.
  - split; [|exact L1]. destruct L2 as [L2|[e [I E]]]; [|exists e; split; [exact I|symmetry; exact E]].
    exists e0. split; [exact I0|]. specialize (L1 e0 I0). assert (J := proj1 (proj1 (filter_In _ _ _) I0)).
    assert (X := t_log _ _ _ HH e0 J). unfold dur in L1. unfold took. lia.
  - split; [|exact H1]. destruct H2 as [H2|[e [I E]]]; [|exists e; split; [exact I|symmetry; exact E]].
    exists e0. split; [exact I0|]. specialize (H1 e0 I0). unfold dur in H1. unfold took. lia.
Qed.

(** the time by which the number of queries is divided: from the first query of the first worker to the latest "first query plus
    sum of the times of the queries" of a worker *)
Theorem C106_rate_exact : forall rookie n t cs ls s k st, (0 < n)%nat -> run rookie n (init t cs) ls = Some s ->
  nth_error (stats s) k = Some st -> exists a b, s_elapsed st = b - a /\ smallest e_t0 (of_ph k (log s)) a /\
    (forall i lo, (i < n)%nat -> smallest e_t0 (by_worker k i (log s)) lo -> lo + together (by_worker k i (log s)) <= b) /\
    (exists i lo, (i < n)%nat /\ smallest e_t0 (by_worker k i (log s)) lo /\ b = lo + together (by_worker k i (log s))).
Proof.
  intros rookie n t cs ls s k st NP R ST. destruct (reach rookie n NP t cs ls s R) as [[HA [HZ [HK HH]]] HF].
  destruct (f_stats _ _ _ HF k st ST) as [[SM [_ [_ [a [b [EL [[A1 [ia [A2 A3]]] [B1 [ib [B2 B3]]]]]]]]]] _].
  assert (FS : forall i, (i < n)%nat -> smallest e_t0 (by_worker k i (log s)) (first (mine k i (log s)))).
  { intros i L. rewrite mine_by. destruct (first_in _ (SM i L)) as [e [I E]]. split; [eauto|]. apply (f_seq _ _ _ HF k i). }
  assert (UN : forall l x y, smallest e_t0 l x -> smallest e_t0 l y -> x = y).
  { intros l x y [[e [I E]] M] [[f [J F]] M']. specialize (M f J). specialize (M' e I). lia. }
  exists a, b. split; [exact EL|]. split; [|split].
  - split.
    + destruct (first_in _ (SM ia A2)) as [e [I E]]. exists e. split; [eapply mine_phase; eauto|congruence].
    + intros e I. destruct (phase_worker _ _ _ _ _ HH I) as [L J]. specialize (A1 _ L). destruct (f_seq _ _ _ HF k (e_w e)) as [X _]. specialize (X e J). lia.
  - intros i lo L S. rewrite (UN _ _ _ S (FS i L)). rewrite mine_by, together_busy. apply B1; exact L.
  - exists ib, (first (mine k ib (log s))). split; [exact B2|]. split; [apply FS; exact B2|]. rewrite mine_by, together_busy. exact B3.
Qed.

(** it is never more than the time that passed: the rate is never too low *)
Theorem C106_rate_partial : forall rookie n t cs ls s k st lo hi, (0 < n)%nat -> run rookie n (init t cs) ls = Some s ->
  nth_error (stats s) k = Some st -> smallest e_t0 (of_ph k (log s)) lo -> largest e_t1 (of_ph k (log s)) hi ->
  s_elapsed st <= hi - lo /\ (no_pause k n (log s) -> s_elapsed st = hi - lo).
Proof.
  intros rookie n t cs ls s k st lo hi NP R ST LO HI.
  destruct (C106_rate_exact rookie n t cs ls s k st NP R ST) as [a [b [EL [A [B1 [ib [lb [B2 [B3 B4]]]]]]]]].
  destruct (reach rookie n NP t cs ls s R) as [[HA [HZ [HK HH]]] HF].
  assert (E : a = lo).
  { destruct A as [[e [I X]] M], LO as [[f [J Y]] M']. specialize (M f J). specialize (M' e I). lia. }
  subst a.
  assert (LE : b <= hi).
  { destruct (f_seq _ _ _ HF k ib) as [X Y]. rewrite mine_by, together_busy in *. destruct B3 as [[e [I Q]] M].
    destruct Y as [Y|[f [J Y]]]; [rewrite Y in I; destruct I|].
    assert (NZ : mine k ib (log s) <> []) by (intro Z; rewrite Z in I; destruct I).
    destruct (first_in _ NZ) as [g [G1 G2]]. specialize (M g G1). specialize (X e I).
    destruct HI as [_ HI]. specialize (HI f (mine_phase _ _ _ _ J)). lia. }
  split; [lia|]. intro NPZ. assert (GE : hi <= b); [|lia].
  destruct HI as [[e [I Q]] _]. destruct (phase_worker _ _ _ _ _ HH I) as [L J].
  assert (NZ : mine k (e_w e) (log s) <> []) by (intro Z; rewrite Z in J; destruct J).
  assert (FS : smallest e_t0 (by_worker k (e_w e) (log s)) (first (mine k (e_w e) (log s)))).
  { rewrite mine_by. destruct (first_in _ NZ) as [g [G1 G2]]. split; [eauto|]. apply (f_seq _ _ _ HF k (e_w e)). }
  specialize (NPZ _ _ L FS e ltac:(rewrite mine_by; exact J)). specialize (B1 _ _ L FS). lia.
Qed.

(** one worker, two queries of 5 with a pause of 90 in between: 100 pass, 10 are reported *)
Definition pause : list lab :=
  [MS; WS 0 true; WS 0 true; WS 0 true; WS 0 true; Tick 5; WS 0 true; Tick 90; WS 0 true; WS 0 true; WS 0 true; WS 0 true; Tick 5; WS 0 true;
   WS 0 true; WS 0 true; WS 0 true; MS; MS].
Theorem C106_rate_refuted : exists s st, run true 1 (init 1000 [2]) pause = Some s /\ main s = MOk /\ stats s = [st] /\
  smallest e_t0 (of_ph 0 (log s)) 1000 /\ largest e_t1 (of_ph 0 (log s)) 1100 /\ s_elapsed st = 10.
Proof.
  eexists. eexists. split; [vm_compute; reflexivity|]. split; [reflexivity|]. split; [reflexivity|]. split; [|split; [|reflexivity]].
  - split; [exists (E 0 2 0 1000 1005 true); split; [left; reflexivity|reflexivity]|]. intros e I. cbn in I. destruct I as [I|[I|[]]]; subst e; cbn; lia.
  - split; [exists (E 0 1 0 1095 1100 true); split; [right; left; reflexivity|reflexivity]|]. intros e I. cbn in I. destruct I as [I|[I|[]]]; subst e; cbn; lia.
Qed.

(** ---- C107 ---- *)
Lemma drop_last : forall d ms, has d BENCH = false -> drop_space (d ++ [(BENCH, ms)]) BENCH = d.
Proof.
  induction d as [|[y m] r IH]; intros ms H; [reflexivity|]. cbn [has] in H. apply orb_false_iff in H. destruct H as [A B].
  cbn [app drop_space]. rewrite A, IH by exact B. reflexivity.
Qed.
Lemma add_last : forall d ms m, has d BENCH = false -> add_model (d ++ [(BENCH, ms)]) BENCH m = d ++ [(BENCH, ms ++ [m])].
Proof.
  induction d as [|[y l] r IH]; intros ms m H; [reflexivity|]. cbn [has] in H. apply orb_false_iff in H. destruct H as [A B].
  cbn [app add_model]. rewrite A, IH by exact B. reflexivity.
Qed.
Lemma has_last : forall d ms, has (d ++ [(BENCH, ms)]) BENCH = true.
Proof. induction d as [|[y l] r IH]; intro ms; [reflexivity|]. cbn [app has]. rewrite IH. apply orb_true_r. Qed.

(** a space called bench that was there is not touched, whatever goes wrong *)
Theorem C107_untouched : forall f d, has d BENCH = true -> bench_run f d = (d, BErr).
Proof. intros f d H. unfold bench_run. rewrite H, orb_true_r. destruct (f_connect f); reflexivity. Qed.

(** exactly when something is left behind *)
Theorem C107_exact : forall f d, fst (bench_run f d) = d <->
  has d BENCH = true \/ f_connect f = true \/ f_space f = true \/ (f_model f = false /\ f_clean f = false).
Proof.
  intros f d. destruct (has d BENCH) eqn:H; [rewrite C107_untouched by exact H; cbn; tauto|].
  assert (NE : forall ms, d ++ [(BENCH, ms)] <> d).
  { intros ms X. apply (f_equal (@length _)) in X. rewrite app_length in X. cbn in X. lia. }
  unfold bench_run, cleanup. rewrite H. cbn [orb].
  destruct (f_connect f); [cbn; tauto|]. destruct (f_space f); [cbn; tauto|]. cbn [orb].
  destruct (f_model f); [cbn; split; [intro X; elim (NE _ X)|intros [X|[X|[X|[X _]]]]; discriminate X]|].
  rewrite add_last by exact H. rewrite has_last.
  destruct (f_clean f), (f_bench f); cbn [fst]; rewrite ?drop_last by exact H.
  1,2: split; [intro X; elim (NE _ X)|intros [X|[X|[X|[_ X]]]]; discriminate X].
  1,2: split; auto.
Qed.

(** after a run that says it went well, everything is as before *)
Theorem C107_success : forall f d d', bench_run f d = (d', BOk) -> d' = d.
Proof.
  intros f d d' R. assert (E : fst (bench_run f d) = d); [|rewrite R in E; exact E]. apply C107_exact.
  unfold bench_run, cleanup in R. destruct (f_connect f); [auto|]. destruct (f_space f); [auto|]. destruct (has d BENCH); [auto|]. cbn [orb] in R.
  destruct (f_model f); [discriminate R|]. destruct (f_bench f); [discriminate R|]. destruct (f_clean f); [discriminate R|]. auto 6.
Qed.

(** what is left behind makes every later run fail *)
Theorem C107_next_fails : forall f g d, fst (bench_run f d) <> d -> bench_run g (fst (bench_run f d)) = (fst (bench_run f d), BErr).
Proof.
  intros f g d NE. apply C107_untouched. revert NE. unfold bench_run, cleanup.
  destruct (f_connect f); [intro X; elim X; reflexivity|]. destruct (f_space f || has d BENCH) eqn:H; [intro X; elim X; reflexivity|].
  apply orb_false_iff in H. destruct H as [_ H]. intro NE.
  destruct (f_model f); [apply has_last|]. rewrite add_last in * by exact H. rewrite has_last in *.
  destruct (f_bench f), (f_clean f); cbn [fst] in *; try apply has_last; rewrite drop_last in NE by exact H; elim NE; reflexivity.
Qed.

(** a failed CREATE MODEL, a server that stops during the benchmark: the space stays *)
Theorem C107_refuted :
  fst (bench_run (Fl false false true false false) [(1%nat, [2%nat])]) = [(1%nat, [2%nat]); (BENCH, [])] /\
  fst (bench_run (Fl false false false true true) [(1%nat, [2%nat])]) = [(1%nat, [2%nat]); (BENCH, [BENCH])].
Proof. split; vm_compute; reflexivity. Qed.
Example C107_case : bench_run (Fl false false false true false) [(1%nat, [2%nat])] = ([(1%nat, [2%nat])], BErr) /\
  bench_run (Fl false false false false false) [(1%nat, [2%nat])] = ([(1%nat, [2%nat])], BOk).
Proof. split; vm_compute; reflexivity. Qed.

Print Assumptions C105_never_twice.
Print Assumptions C105_in_order.
Print Assumptions C105_each_once.
Print Assumptions C105_bad_answer.
Print Assumptions C105_too_few.
Print Assumptions C105_bounded.
Print Assumptions C105_finishes_partial.
Print Assumptions C105_dead_forever.
Print Assumptions C105_can_hang.
Print Assumptions C105_refuted.
Print Assumptions C106_extremes.
Print Assumptions C106_rate_exact.
Print Assumptions C106_rate_partial.
Print Assumptions C106_rate_refuted.
Print Assumptions C107_untouched.
Print Assumptions C107_exact.
Print Assumptions C107_success.
Print Assumptions C107_next_fails.
Print Assumptions C107_refuted.
