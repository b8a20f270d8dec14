(** C116: what a SELECT ALL sees while other statements run. *)
From Coq Require Import List NArith Bool Arith Lia Permutation.
From Verif Require Import DataModel RowModel ConcModel ConcSpec ConcProofs.
Import ListNotations.
Local Open Scope nat_scope.

Section Scan.
Variables V F : Type.
Variable app : F -> V -> V * bool.
Variable ord : list nat -> list nat.
Hypothesis ord_perm : forall l, Permutation (ord l) l.
Notation cst := (cst V F).
Notation ctask := (ctask V F).
Notation crun := (crun app ord).
Notation cstep := (cstep app ord).

Lemma crun_app a b c : crun c (a ++ b) = match crun c a with Some c' => crun c' b | None => None end.
Proof. revert c. induction a as [|l a IH]; intros c; cbn; [reflexivity|]. destruct (cstep c l); [apply IH|reflexivity]. Qed.
Lemma step_now c l c' : cstep c l = Some c' -> c_now c' = S (c_now c).
Proof.
  destruct l as [s|i| |]; cbn; intros E.
  - now injection E as <-.
  - destruct (nth_error _ i) as [t|]; [|discriminate E]. unfold step_task in E.
    repeat (match type of E with context [match ?x with _ => _ end] => destruct x; try discriminate E end); injection E as <-; reflexivity.
  - destruct (c_queue c); [discriminate E|]. destruct (blocked _ _); [discriminate E|]. now injection E as <-.
  - now injection E as <-.
Qed.
Lemma run_now ls : forall c c', crun c ls = Some c' -> c_now c' = length ls + c_now c.
Proof. induction ls as [|l ls IH]; cbn; intros c c' E; [now injection E as <-|]. destruct (cstep c l) as [c1|] eqn:X; [|discriminate E]. rewrite (IH _ _ E), (step_now _ _ _ X). lia. Qed.

(** what a scan in progress has *)
Definition saw (ls : list (clab V F)) (inv : nat) (now : nat) (kx : pkey * V) : Prop :=
  exists n c1, moment app ord ls n c1 /\ inv <= n <= now /\ mem c1 (fst kx) = Some (snd kx).
Definition scan_ok (ls : list (clab V F)) (c : cst) (t : ctask) : Prop :=
  match ct_pc t with
  | PScan rest acc => (forall kx, In kx acc -> saw ls (ct_inv t) (c_now c) kx) /\
      exists ks, Forall2 (fun o k => c_idx c k = Some o) rest ks /\ NoDup (map fst acc ++ ks) /\
        (forall k, In k (map fst acc ++ ks) <-> c_idx c k <> None)
  | PDone a m => ct_st t = CAll -> m < c_now c /\ exists l, a = CArows l /\ NoDup (map fst l) /\ (forall kx, In kx l -> saw ls (ct_inv t) m kx) /\
      exists n c0, moment app ord ls n c0 /\ ct_inv t <= n <= m /\ forall k, In k (map fst l) <-> mem c0 k <> None
  | _ => True
  end.
(** the latch *)
Definition excl (c : cst) : Prop := forall i j t u, nth_error (c_tasks c) i = Some t -> nth_error (c_tasks c) j = Some u -> scans t = true -> i <> j -> shares u = false /\ scans u = false.

Record sinv (ls : list (clab V F)) (c : cst) : Prop := mk_sinv {
  si_ok : forall i t, nth_error (c_tasks c) i = Some t -> scan_ok ls c t;
  si_ex : excl c;
  si_lin : exists L, linv V F app c L }.

Lemma moment_more ls l n c : moment app ord ls n c -> moment app ord (ls ++ [l]) n c.
Proof. intros [A B]. split; [rewrite app_length; lia|]. rewrite firstn_app. replace (n - length ls) with 0 by lia. cbn. rewrite app_nil_r. exact B. Qed.
Lemma moment_here ls l c : crun cst0 ls = Some c -> moment app ord (ls ++ [l]) (c_now c) c.
Proof.
  intros R. pose proof (run_now _ _ _ R) as E. cbn in E. split; [rewrite app_length; lia|]. replace (c_now c) with (length ls) by lia. rewrite firstn_app, Nat.sub_diag, firstn_all. cbn. now rewrite app_nil_r.
Qed.
Lemma saw_more ls l a n n' kx : n <= n' -> saw ls a n kx -> saw (ls ++ [l]) a n' kx.
Proof. intros H (m & c1 & M & W & E). exists m, c1. split; [apply moment_more, M|]. split; [lia|exact E]. Qed.
Lemma scan_keep ls l c c' t : scan_ok ls c t -> (scans t = true -> forall k, c_idx c' k = c_idx c k) -> c_now c <= c_now c' -> scan_ok (ls ++ [l]) c' t.
Proof.
  unfold scan_ok, scans. destruct (ct_pc t) as [| | | | | | | | | |rest acc|a m]; auto; intros H ID LE.
  - specialize (ID eq_refl). destruct H as (H & ks & H1 & H2 & H3). split; [intros kx I; eapply saw_more; [exact LE|auto]|]. exists ks. split; [|split; [exact H2|intros k; rewrite ID; apply H3]].
    clear - H1 ID. induction H1; constructor; auto. now rewrite ID.
  - intros A. destruct (H A) as (H1 & x & -> & H2 & H3 & n & c0 & H4 & H5 & H6). split; [lia|]. exists x. split; [reflexivity|]. split; [exact H2|]. split; [intros kx I; eapply saw_more; [|auto]; lia|].
    exists n, c0. split; [apply moment_more, H4|]. auto.
Qed.
Lemma step_shape c i t c' : step_task app ord c i t = Some c' -> exists pc, c_tasks c' = rep (c_tasks c) i (mk_ct (ct_st t) (ct_inv t) pc) /\
  (shares t = false -> c_idx c' = c_idx c) /\ (shares (mk_ct (ct_st t) (ct_inv t) pc) = true -> shares t = true \/ scanning c = false) /\
  (scans (mk_ct (ct_st t) (ct_inv t) pc) = true -> ct_st t = CAll /\ (scans t = true \/ latched c = false)) /\
  (ct_st t <> CAll -> forall a b, pc <> PScan a b).
Proof.
  unfold step_task. intros E. unfold shares, scans. cbn.
  destruct (ct_st t) eqn:SE; destruct (ct_pc t) eqn:PE; try discriminate E;
  repeat (match type of E with context [match ?x with _ => _ end] => destruct x eqn:?; try discriminate E end); injection E as <-; eexists;
  (split; [rewrite <- SE; reflexivity|]); (split; [intros X; try discriminate X; reflexivity|]); (split; [intros X; try discriminate X; auto|]); (split; [intros X; try discriminate X; auto|]);
  intros X; try (exfalso; apply X; reflexivity); intros ? ? Y; discriminate Y.
Qed.
Lemma rep_at A (l : list A) i y x j z : nth_error l i = Some y -> nth_error (rep l i x) j = Some z -> (j = i /\ z = x) \/ (j <> i /\ nth_error l j = Some z).
Proof.
  intros N H. destruct (Nat.eq_dec j i) as [->|J]; [left; rewrite (rep_same _ _ _ _ x N) in H; injection H as <-; auto|right; rewrite (rep_other _ _ _ _ _ x N J) in H; auto].
Qed.
Lemma exists_none A (f : A -> bool) l i t : existsb f l = false -> nth_error l i = Some t -> f t = false.
Proof. intros E N. apply nth_error_In in N. destruct (f t) eqn:X; [|reflexivity]. assert (existsb f l = true) by (apply existsb_exists; eauto). congruence. Qed.
Lemma step_excl c i t c' : excl c -> nth_error (c_tasks c) i = Some t -> step_task app ord c i t = Some c' -> excl c'.
Proof.
  intros EX N ST. destruct (step_shape _ _ _ _ ST) as (pc & TS & _ & SH & SC & _). intros a b x y NA NB SX D. rewrite TS in NA, NB.
  apply (rep_at _ _ _ _ _ _ _ N) in NA. apply (rep_at _ _ _ _ _ _ _ N) in NB. destruct NA as [[-> ->]|[A NA]], NB as [[-> ->]|[B NB]].
  - congruence.
  - destruct (SC SX) as [_ [X|X]]; [apply (EX i b t y N NB X); congruence|]. apply (exists_none _ _ _ _ _ X) in NB. apply orb_false_iff in NB. exact NB.
  - pose proof (EX a i x t NA N SX A) as [E1 E2]. split.
    + destruct (shares _) eqn:X in |- *; [|reflexivity]. destruct (SH X) as [Y|Y]; [congruence|]. apply (exists_none _ _ _ _ _ Y) in NA. congruence.
    + destruct (scans _) eqn:X in |- *; [|reflexivity]. destruct (SC X) as [_ [Y|Y]]; [congruence|]. apply (exists_none _ _ _ _ _ Y) in NA. apply orb_false_iff in NA. destruct NA. congruence.
  - apply (EX a b x y NA NB SX D).
Qed.

Lemma names_of (idx : pkey -> option nat) rest : Forall (fun o => exists k : pkey, idx k = Some o) rest -> exists ks, Forall2 (fun o k => idx k = Some o) rest ks.
Proof. induction 1 as [|o r (k & E) _ (ks & IH)]; [exists []; constructor|exists (k :: ks); constructor; auto]. Qed.
Lemma names_in (idx : pkey -> option nat) rest ks : Forall2 (fun o k => idx k = Some o) rest ks -> forall k, In k ks -> exists o, In o rest /\ idx k = Some o.
Proof. induction 1 as [|o k r ks E _ IH]; [intros k I; inversion I|]. intros j [->|I]; [exists o; split; [left; reflexivity|exact E]|]. destruct (IH j I) as (x & A & B). exists x. split; [right; exact A|exact B]. Qed.
Lemma names_back (idx : pkey -> option nat) rest ks : Forall2 (fun o k => idx k = Some o) rest ks -> forall o, In o rest -> exists k, In k ks /\ idx k = Some o.
Proof. induction 1 as [|o k r ks E _ IH]; [intros k I; inversion I|]. intros j [->|I]; [exists k; split; [left; reflexivity|exact E]|]. destruct (IH j I) as (x & A & B). exists x. split; [right; exact A|exact B]. Qed.
Lemma names_nd (idx : pkey -> option nat) rest ks : Forall2 (fun o k => idx k = Some o) rest ks -> NoDup rest -> NoDup ks.
Proof.
  induction 1 as [|o k r ks E H IH]; intros ND; [constructor|]. inversion_clear ND as [|? ? A B]. constructor; [|auto]. intros I. apply A.
  destruct (names_in _ _ _ H k I) as (o' & C & D). congruence.
Qed.
Lemma live_spec c L : linv V F app c L -> exists ks, Forall2 (fun o k => c_idx c k = Some o) (live ord c) ks /\ NoDup ks /\ forall k, In k ks <-> c_idx c k <> None.
Proof.
  intros (_ & _ & OI).
  assert (IN : forall o, In o (live ord c) <-> exists k, c_idx c k = Some o).
  { intros o. unfold live. split.
    - intros I. apply (Permutation_in _ (ord_perm _)) in I. apply filter_In in I. destruct I as [_ I]. unfold is_live in I. destruct (nth_error (c_objs c) o) as [b|]; [|discriminate I]. exists (ob_key b).
      destruct (c_idx c (ob_key b)) as [j|]; [|discriminate I]. apply Nat.eqb_eq in I. congruence.
    - intros (k & E). apply (Permutation_in _ (Permutation_sym (ord_perm _))). apply filter_In. destruct (oi_idx _ _ _ _ _ _ _ OI k o E) as (b & NB & KB & _). split.
      + apply in_seq. split; [lia|]. cbn. apply nth_error_Some. congruence.
      + unfold is_live. rewrite NB, KB, E. apply Nat.eqb_refl. }
  destruct (names_of (c_idx c) (live ord c)) as (ks & H). { apply Forall_forall. intros o I. apply IN, I. }
  exists ks. split; [exact H|]. split.
  - eapply names_nd; [exact H|]. unfold live. eapply Permutation_NoDup; [symmetry; apply ord_perm|]. apply NoDup_filter, seq_NoDup.
  - intros k. split.
    + intros I. destruct (names_in _ _ _ H k I) as (o & _ & E). congruence.
    + intros E. destruct (c_idx c k) as [o|] eqn:X; [|congruence]. assert (I : In o (live ord c)) by (apply IN; eauto). destruct (names_back _ _ _ H o I) as (j & J & Y).
      destruct (oi_idx _ _ _ _ _ _ _ OI k o X) as (b & NB & KB & _). destruct (oi_idx _ _ _ _ _ _ _ OI j o Y) as (b' & NB' & KB' & _). congruence.
Qed.

Lemma scan_step ls l c i t c' : crun cst0 ls = Some c -> sinv ls c -> nth_error (c_tasks c) i = Some t -> step_task app ord c i t = Some c' -> sinv (ls ++ [l]) c'.
Proof.
  intros R [OK EX (L & LI)] N ST. destruct (step_task_linv _ _ _ _ _ _ _ _ _ LI N ST) as (L' & LI'). pose proof (step_shape _ _ _ _ ST) as (pc & TS & ID & SH & SC & NS).
  assert (NW : c_now c' = S (c_now c)) by (apply (step_now c (LGo i)); cbn; rewrite N; exact ST).
  constructor; [|eapply step_excl; eassumption|eauto]. intros j x NX. rewrite TS in NX. apply (rep_at _ _ _ _ _ _ _ N) in NX. destruct NX as [[-> ->]|[J NX]].
  - pose proof (OK i t N) as OT. assert (TI : ct_inv t < c_now c) by (destruct LI as (_ & TI & _); eapply ti_inv; eassumption).
    destruct (ct_st t) eqn:SE; try (unfold scan_ok; cbn; destruct pc; auto; try (intros X; discriminate X); exfalso; eapply NS; [intros X; discriminate X|reflexivity]).
    unfold step_task in ST. rewrite SE in ST. destruct (ct_pc t) eqn:PE; try discriminate ST.
    + (* begins *) destruct (latched c) eqn:LA; [discriminate ST|]. injection ST as <-. unfold go in *. cbn in TS.
      assert (PC : pc = PScan (live ord c) []). { pose proof (rep_same _ _ _ _ (mk_ct (ct_st t) (ct_inv t) (PScan (live ord c) [])) N) as A. rewrite TS, (rep_same _ _ _ _ _ N) in A. congruence. }
      subst pc. unfold scan_ok. cbn. split; [intros kx []|]. destruct (live_spec _ _ LI) as (ks & A & B & C). exists ks. auto.
    + (* goes on *) unfold scan_ok in OT. rewrite PE in OT. destruct OT as (O1 & ks & O2 & O3 & O4). destruct rest as [|o rest].
      * injection ST as <-. unfold go in *. cbn in TS. inversion O2; subst ks. rewrite app_nil_r in O3, O4.
        assert (PC : pc = PDone (CArows acc) (c_now c)). { pose proof (rep_same _ _ _ _ (mk_ct (ct_st t) (ct_inv t) (PDone (CArows acc) (c_now c))) N) as A. rewrite TS, (rep_same _ _ _ _ _ N) in A. congruence. }
        subst pc. unfold scan_ok. cbn. intros _. split; [lia|]. exists acc. split; [reflexivity|]. split; [exact O3|]. split; [intros kx I; eapply saw_more; [|apply O1, I]; lia|].
        exists (c_now c), c. split; [apply moment_here, R|]. split; [lia|]. intros k. rewrite O4. unfold mem. destruct LI as (_ & _ & OI). destruct (c_idx c k) as [o|] eqn:X; [|tauto].
        destruct (oi_idx _ _ _ _ _ _ _ OI k o X) as (b & NB & _). rewrite NB. cbn. split; intros _ D; discriminate D.
      * inversion O2 as [|? k ? ks' IK O2']; subst. destruct LI as (TU & TII & OI). destruct (oi_idx _ _ _ _ _ _ _ OI k o IK) as (b & NB & KB & _). rewrite NB in ST. destruct (ob_lock b); [discriminate ST|]. injection ST as <-. unfold go in *. cbn in TS.
        assert (PC : pc = PScan rest (acc ++ [(ob_key b, ob_val b)])). { pose proof (rep_same _ _ _ _ (mk_ct (ct_st t) (ct_inv t) (PScan rest (acc ++ [(ob_key b, ob_val b)]))) N) as A. rewrite TS, (rep_same _ _ _ _ _ N) in A. congruence. }
        subst pc. unfold scan_ok. cbn. split.
        -- intros kx I. apply in_app_iff in I. destruct I as [I|[<-|[]]]; [eapply saw_more; [|apply O1, I]; lia|]. exists (c_now c), c. split; [apply moment_here, R|]. split; [lia|]. cbn. unfold mem. rewrite KB, IK, NB. reflexivity.
        -- exists ks'. rewrite map_app. cbn. rewrite KB, <- app_assoc. cbn. auto.
  - eapply scan_keep; [eapply OK; exact NX| |lia]. intros X k. rewrite ID; [reflexivity|]. destruct (EX j i x t NX N X J). assumption.
Qed.
Lemma scan_cstep ls l c c' : crun cst0 ls = Some c -> sinv ls c -> cstep c l = Some c' -> sinv (ls ++ [l]) c'.
Proof.
  intros R SI ST. pose proof (step_now _ _ _ ST) as NW. destruct l as [s|i| |].
  2: { cbn in ST. destruct (nth_error (c_tasks c) i) as [t|] eqn:N; [|discriminate ST]. eapply scan_step; eassumption. }
  all: destruct SI as [OK EX (L & LI)]; destruct (cstep_linv _ _ _ ord _ _ _ _ LI ST) as (L' & LI'); constructor; [| |eauto]; cbn in ST.
  - injection ST as <-. intros i t N. cbn in N. apply nth_snoc in N. destruct N as [N|[_ ->]]; [|exact Logic.I]. eapply scan_keep; [eapply OK; exact N|intros _ k; reflexivity|cbn; lia].
  - injection ST as <-. intros a b x y NA NB SX D. cbn in NA, NB. apply nth_snoc in NA. apply nth_snoc in NB. destruct NA as [NA|[_ ->]]; [|discriminate SX]. destruct NB as [NB|[_ ->]]; [|cbn; auto]. apply (EX a b x y NA NB SX D).
  - destruct (c_queue c); [discriminate ST|]. destruct (blocked _ _); [discriminate ST|]. injection ST as <-. intros i t N. eapply scan_keep; [eapply OK; exact N|intros _ k; reflexivity|cbn; lia].
  - destruct (c_queue c); [discriminate ST|]. destruct (blocked _ _); [discriminate ST|]. injection ST as <-. exact EX.
  - injection ST as <-. intros i t N. eapply scan_keep; [eapply OK; exact N|intros _ k; reflexivity|cbn; lia].
  - injection ST as <-. exact EX.
Qed.
Lemma scan_run ls : forall c, crun cst0 ls = Some c -> sinv ls c.
Proof.
  induction ls as [|l ls IH] using rev_ind; intros c R.
  - cbn in R. injection R as <-. constructor; [intros [|i] t N; discriminate N|intros [|i] j t u N; discriminate N|exists []; apply linv0].
  - rewrite crun_app in R. destruct (crun cst0 ls) as [c0|] eqn:E; [|discriminate R]. cbn in R. destruct (cstep c0 l) as [c1|] eqn:E1; [|discriminate R]. injection R as <-. eapply scan_cstep; eauto.
Qed.
End Scan.
