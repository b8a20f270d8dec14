(** C118: data statements that run at the same time do not block each other. *)
From Coq Require Import List NArith Bool Arith Lia Permutation.
From Verif Require Import DataModel CodecModel RowModel ConcModel ConcSpec ConcProofs ConcScan ConcDisk ConcProps.
Import ListNotations.
Local Open Scope nat_scope.

(** ** Specification *)

(** no statement begins, no batch ends *)
Definition going {V F} (l : clab V F) : Prop := match l with LGo _ | LFlush => True | LStart _ | LEnd => False end.
(** a statement is answered *)
Definition answered {V F} (t : ctask V F) : Prop := exists a m, ct_pc t = PDone a m.
(** everything is answered, and nothing waits for the disk *)
Definition at_rest {V F} (c : cst V F) : Prop := (forall i t, nth_error (c_tasks c) i = Some t -> answered t) /\ c_queue c = [].
(** whom a statement may have to wait for *)
Definition may_wait {V F} (s u : cstmt V F) : Prop :=
  match s, u with
  | (CIns _ _ | CDel _), CAll => True
  | (CUpd k _ | CSel k), CUpd j _ => j = k
  | CAll, (CIns _ _ | CDel _ | CAll | CUpd _ _) => True
  | _, _ => False
  end.

Section Live.
Variables V F : Type.
Variable app : F -> V -> V * bool.
Variable ord : list nat -> list nat.
Hypothesis ordp : forall l, Permutation (ord l) l.
Notation cst := (cst V F).
Notation ctask := (ctask V F).
Notation locks := (locks V F).
Notation cstep := (cstep app ord).
Notation crun := (crun app ord).

(** ** Locked rows have an owner; the rows of a SELECT ALL exist *)
Definition pinv (c : cst) : Prop :=
  (forall o b, nth_error (c_objs c) o = Some b -> ob_lock b = true -> exists j u, nth_error (c_tasks c) j = Some u /\ locks u = Some o) /\
  (forall j u rest acc, nth_error (c_tasks c) j = Some u -> ct_pc u = PScan rest acc -> length rest <= length (c_objs c) /\ Forall (fun o => o < length (c_objs c)) rest).

(** a step that keeps all locks *)
Lemma pinv_keep (objs objs' : list (obj V)) (tasks : list ctask) i t t' :
  nth_error tasks i = Some t ->
  (forall o b, nth_error objs o = Some b -> ob_lock b = true -> exists j u, nth_error tasks j = Some u /\ locks u = Some o) ->
  (forall o b', nth_error objs' o = Some b' -> ob_lock b' = true -> locks t' = Some o \/ (locks t <> Some o /\ exists b, nth_error objs o = Some b /\ ob_lock b = true)) ->
  forall o b', nth_error objs' o = Some b' -> ob_lock b' = true -> exists j u, nth_error (rep tasks i t') j = Some u /\ locks u = Some o.
Proof using.
  intros N H K o b' E L. destruct (K o b' E L) as [X|[X (b & E0 & L0)]].
  - exists i, t'. split; [eapply rep_same; exact N|exact X].
  - destruct (H o b E0 L0) as (j & u & NJ & LJ). exists j, u. split; [|exact LJ]. rewrite (rep_other _ _ _ j _ t' N); [exact NJ|]. intros ->. congruence.
Qed.
Lemma nth_rep A (l : list A) o x y o' z : nth_error l o = Some x -> nth_error (rep l o y) o' = Some z -> (o' = o /\ z = y) \/ (o' <> o /\ nth_error l o' = Some z).
Proof using.
  intros N H. destruct (Nat.eq_dec o' o) as [->|J]; [left; rewrite (rep_same _ _ _ _ y N) in H; injection H as <-; auto|right; rewrite (rep_other _ _ _ _ _ y N J) in H; auto].
Qed.
Lemma objs_grow c i t c' : step_task app ord c i t = Some c' -> length (c_objs c) <= length (c_objs c').
Proof using.
  unfold step_task. intros E. destruct (ct_st t) eqn:SE; destruct (ct_pc t) eqn:PE; try discriminate E;
  repeat (match type of E with context [match ?x with _ => _ end] => destruct x eqn:?; try discriminate E end); injection E as <-; cbn;
  rewrite ?app_length; try (rewrite rep_length; [lia|apply nth_error_Some; congruence]); lia.
Qed.
Lemma live_le (c : cst) : length (live ord c) <= length (c_objs c) /\ Forall (fun o => o < length (c_objs c)) (live ord c).
Proof using ordp.
  unfold live. split.
  - rewrite (Permutation_length (ordp _)). transitivity (length (seq 0 (length (c_objs c)))); [|rewrite seq_length; lia].
    generalize (seq 0 (length (c_objs c))) as l. induction l as [|x l IH]; cbn; [lia|]. destruct (is_live c x); cbn; lia.
  - apply Forall_forall. intros x I. apply (Permutation_in _ (ordp _)) in I. apply filter_In in I as [I _]. apply in_seq in I. lia.
Qed.

Lemma pinv_task c i t c' : pinv c -> nth_error (c_tasks c) i = Some t -> step_task app ord c i t = Some c' -> pinv c'.
Proof using ordp.
  intros [P1 P2] N ST. pose proof (objs_grow _ _ _ _ ST) as GR. pose proof (live_le c) as [LL LF].
  split.
  - unfold step_task in ST. destruct (ct_st t) eqn:SE; destruct (ct_pc t) eqn:PE; try discriminate ST;
    repeat (match type of ST with context [match ?x with _ => _ end] => destruct x eqn:?; try discriminate ST end); injection ST as <-; cbn [c_objs c_tasks go with_objs with_idx queued numbered];
    (eapply pinv_keep; [exact N|exact P1|]); unfold ConcDisk.locks; cbn [ct_pc]; rewrite PE; intros oo bb E0 L0;
    try (right; split; [discriminate|eauto]; fail).
    all: try (match goal with |- Some ?x = Some ?y \/ _ => destruct (Nat.eq_dec x y) as [->|D0]; [left; reflexivity|right; split; [congruence|eauto]] end; fail).
    all: try (apply nth_snoc in E0 as [E0|[_ ->]]; [|discriminate L0]; right; split; [discriminate|eauto]; fail).
    all: match goal with H : nth_error (c_objs _) _ = Some _ |- _ => apply (nth_rep _ _ _ _ _ _ _ H) in E0 as [[-> ->]|[D E0]] end;
      try (left; reflexivity); try discriminate L0; try (right; split; [congruence|eauto]; fail).
  - destruct (step_shape V F app ord _ _ _ _ ST) as (pc & TS & _ & _ & SC & SN). intros j u rest acc NJ PJ. rewrite TS in NJ.
    apply (rep_at _ _ _ _ _ _ _ N) in NJ as [[-> ->]|[D NJ]].
    + cbn [ct_pc] in PJ. subst pc. destruct (SC eq_refl) as [SA _].
      unfold step_task in ST. rewrite SA in ST. destruct (ct_pc t) as [| | | | | | | | | |[|o r] acc0|] eqn:PE; try discriminate ST.
      * destruct (latched c); [discriminate ST|]. injection ST as ST. rewrite <- ST in TS |- *. cbn [c_objs go]. cbn [c_tasks go] in TS.
        assert (X := rep_same _ _ _ _ (mk_ct CAll (ct_inv t) (PScan (live ord c) [])) N). rewrite SA in TS. rewrite TS in X. rewrite (rep_same _ _ _ _ _ N) in X. injection X as -> _. auto.
      * exfalso. injection ST as ST. rewrite <- ST in TS. cbn [c_tasks go] in TS. assert (X := f_equal (fun l => nth_error l i) TS). cbn beta in X. rewrite !(rep_same _ _ _ _ _ N) in X. discriminate X.
      * destruct (nth_error (c_objs c) o) as [b|]; [|discriminate ST]. destruct (ob_lock b); [discriminate ST|]. injection ST as ST. rewrite <- ST in TS |- *. cbn [c_objs go]. cbn [c_tasks go] in TS.
        assert (X := f_equal (fun l => nth_error l i) TS). cbn beta in X. rewrite !(rep_same _ _ _ _ _ N) in X. injection X as <- _.
        destruct (P2 i t (o :: r) acc0 N PE) as [Q1 Q2]. cbn [length] in Q1. inversion Q2; subst. split; [lia|assumption].
    + destruct (P2 j u rest acc NJ PJ) as [Q1 Q2]. split; [lia|]. eapply Forall_impl; [|exact Q2]. cbn. intros; lia.
Qed.
Lemma pinv_step c l c' : pinv c -> cstep c l = Some c' -> pinv c'.
Proof using ordp.
  intros P ST. destruct l as [s|i| |]; cbn in ST.
  - injection ST as <-. destruct P as [P1 P2]. split; cbn.
    + intros o b E L. destruct (P1 o b E L) as (j & u & NJ & LJ). exists j, u. split; [rewrite nth_error_app1; [exact NJ|apply nth_error_Some; congruence]|exact LJ].
    + intros j u rest acc NJ PJ. apply nth_snoc in NJ as [NJ|[_ ->]]; [eapply P2; eassumption|discriminate PJ].
  - destruct (nth_error (c_tasks c) i) as [t|] eqn:N; [|discriminate ST]. eapply pinv_task; eassumption.
  - destruct (c_queue c) as [|d q]; [discriminate ST|]. destruct (blocked (c_objs c) d); [discriminate ST|]. injection ST as <-. exact P.
  - injection ST as <-. exact P.
Qed.
Lemma pinv_run ls : forall c c', pinv c -> crun c ls = Some c' -> pinv c'.
Proof using ordp. induction ls as [|l ls IH]; intros c c' P R; cbn in R; [congruence|]. destruct (cstep c l) as [c1|] eqn:E; [|discriminate R]. eapply IH; [eapply pinv_step; eassumption|exact R]. Qed.
Lemma pinv0 : pinv cst0.
Proof using. split; cbn; intros; [destruct o; discriminate|destruct j; discriminate]. Qed.

(** ** Somebody can go on *)
Lemma answered_dec (t : ctask) : answered t \/ ~ answered t.
Proof using. unfold answered. destruct (ct_pc t); try (right; intros (? & ? & X); discriminate X). left. eauto. Qed.
(** the step of a task is there *)
Definition free (c : cst) (i : nat) : Prop := exists c', cstep c (LGo i) = Some c'.
Lemma free_task c i t : nth_error (c_tasks c) i = Some t -> step_task app ord c i t <> None -> free c i.
Proof using. intros N H. unfold free. cbn. rewrite N. destruct (step_task app ord c i t) as [c'|]; [eauto|congruence]. Qed.

Lemma owner_free c L i t o : linv V F app c L -> nth_error (c_tasks c) i = Some t -> locks t = Some o -> free c i.
Proof using.
  intros (_ & TI & OI) N LO. apply (free_task _ _ _ N). pose proof (ti_fits _ _ _ _ _ TI i t N) as FT. unfold ConcDisk.locks in LO.
  assert (HO : holds V F t = Some o) by (unfold holds; destruct (ct_pc t); try discriminate LO; exact LO).
  destruct (oi_hold _ _ _ _ _ _ _ OI i t o N HO) as (b & E & _). unfold step_task, fits in *.
  destruct (ct_st t), (ct_pc t); try discriminate LO; try contradiction; try discriminate; injection LO as ->; rewrite E; [destruct (app f (ob_val b)) as [y []]|]; discriminate.
Qed.
Lemma scan_free c i t : pinv c -> (forall o b, nth_error (c_objs c) o = Some b -> ob_lock b = false) -> nth_error (c_tasks c) i = Some t -> ct_st t = CAll -> scans t = true -> free c i.
Proof using.
  intros [_ P2] NL N SA SC. apply (free_task _ _ _ N). unfold step_task, scans in *. rewrite SA. destruct (ct_pc t) as [| | | | | | | | | |[|o r] acc|] eqn:PE; try discriminate SC; [discriminate|].
  destruct (P2 i t _ _ N PE) as [_ Q]. inversion Q; subst. destruct (nth_error (c_objs c) o) as [b|] eqn:E; [|apply nth_error_None in E; lia]. rewrite (NL o b E). discriminate.
Qed.
Lemma share_free c L i t : linv V F app c L -> nth_error (c_tasks c) i = Some t -> shares t = true -> free c i.
Proof using.
  intros (_ & TI & OI) N SH. apply (free_task _ _ _ N). pose proof (ti_fits _ _ _ _ _ TI i t N) as FT. unfold step_task, shares, fits in *.
  destruct (ct_st t), (ct_pc t); try discriminate SH; try contradiction; try discriminate.
  - destruct (c_idx c k); discriminate.
  - destruct (c_idx c k) as [o|] eqn:IX; [|discriminate]. destruct (oi_idx _ _ _ _ _ _ _ OI k o IX) as (b & E & _). rewrite E. discriminate.
Qed.

(** a statement that cannot go on waits for one that [may_wait] names and that is under way *)
Lemma waits_for c L0 i t : linv V F app c L0 -> pinv c -> nth_error (c_tasks c) i = Some t -> ~ answered t -> cstep c (LGo i) = None ->
  exists j u, nth_error (c_tasks c) j = Some u /\ busy u /\ may_wait (ct_st t) (ct_st u).
Proof using.
  intros LI PI N NA ST. pose proof LI as (_ & TI & OI). pose proof (ti_fits _ _ _ _ _ TI i t N) as FT. cbn in ST. rewrite N in ST.
  assert (FITS : forall j u, nth_error (c_tasks c) j = Some u -> fits V F u) by (intros j u NJ; exact (ti_fits _ _ _ _ _ TI j u NJ)).
  assert (SCAN : forall j u, nth_error (c_tasks c) j = Some u -> scans u = true -> ct_st u = CAll /\ busy u).
  { intros j u NJ SC. specialize (FITS j u NJ). unfold scans, fits, busy in *. destruct (ct_st u), (ct_pc u); try discriminate SC; try contradiction; repeat split; discriminate. }
  assert (SCN : scanning c = true -> exists j u, nth_error (c_tasks c) j = Some u /\ busy u /\ ct_st u = CAll).
  { intros X. unfold scanning in X. apply existsb_exists in X as (u & IU & SU). apply In_nth_error in IU as (j & NJ). destruct (SCAN j u NJ SU). eauto. }
  assert (LTC : latched c = true -> exists j u, nth_error (c_tasks c) j = Some u /\ busy u /\ ((exists k x, ct_st u = CIns k x) \/ (exists k, ct_st u = CDel k) \/ ct_st u = CAll)).
  { intros X. unfold latched in X. apply existsb_exists in X as (u & IU & SU). apply In_nth_error in IU as (j & NJ). exists j, u. split; [exact NJ|].
    apply orb_true_iff in SU as [SU|SU]; [|destruct (SCAN j u NJ SU); auto]. specialize (FITS j u NJ). unfold shares, fits, busy in *.
    destruct (ct_st u), (ct_pc u); try discriminate SU; try contradiction; (split; [split; discriminate|]); eauto. }
  assert (LCK : forall o b, nth_error (c_objs c) o = Some b -> ob_lock b = true -> exists j u k f, nth_error (c_tasks c) j = Some u /\ busy u /\ ct_st u = CUpd k f /\ k = ob_key b).
  { intros o b E L. destruct (proj1 PI o b E L) as (j & u & NJ & LJ). specialize (FITS j u NJ). exists j, u.
    assert (HO : holds V F u = Some o) by (unfold holds, ConcDisk.locks in *; destruct (ct_pc u); try discriminate LJ; exact LJ).
    destruct (oi_hold _ _ _ _ _ _ _ OI j u o NJ HO) as (b2 & E2 & K2). assert (b2 = b) by congruence. subst b2.
    unfold ConcDisk.locks, fits, busy, key_of in *. destruct (ct_st u) as [|k f| | |], (ct_pc u); try discriminate LJ; try contradiction; exists k, f; (split; [exact NJ|]; split; [split; discriminate|]; split; [reflexivity|congruence]). }
  assert (HLD : forall o, holds V F t = Some o -> exists b, nth_error (c_objs c) o = Some b /\ key_of V F (ct_st t) = Some (ob_key b)) by (intros o HO; exact (oi_hold _ _ _ _ _ _ _ OI i t o N HO)).
  unfold step_task, fits, holds in *. destruct (ct_st t) as [k x|k f|k|k|] eqn:SE; destruct (ct_pc t) as [|v|o v|o|o|o v|o v|v|o v|o|rest acc|a m] eqn:PE; try contradiction;
    try (exfalso; apply NA; unfold answered; rewrite PE; eauto; fail); try discriminate ST.
  - destruct (scanning c) eqn:X; [|discriminate ST]. destruct (SCN eq_refl) as (j & u & NJ & BU & EU). exists j, u. rewrite EU. cbn. auto.
  - destruct (c_idx c k); discriminate ST.
  - destruct (c_idx c k); discriminate ST.
  - destruct (HLD o eq_refl) as (b & E & K). rewrite E in ST. destruct (ob_lock b) eqn:L; [|discriminate ST]. destruct (LCK o b E L) as (j & u & k' & f' & NJ & BU & EU & KU). exists j, u. rewrite EU. cbn in *. split; [exact NJ|]. split; [exact BU|congruence].
  - destruct (HLD o eq_refl) as (b & E & K). rewrite E in ST. destruct (app f (ob_val b)) as [y []]; discriminate ST.
  - destruct (HLD o eq_refl) as (b & E & K). rewrite E in ST. discriminate ST.
  - destruct (scanning c) eqn:X; [|discriminate ST]. destruct (SCN eq_refl) as (j & u & NJ & BU & EU). exists j, u. rewrite EU. cbn. auto.
  - destruct (c_idx c k) as [o|] eqn:IX; [|discriminate ST]. destruct (oi_idx _ _ _ _ _ _ _ OI k o IX) as (b & E & _). rewrite E in ST. discriminate ST.
  - destruct (c_idx c k); discriminate ST.
  - destruct (HLD o eq_refl) as (b & E & K). rewrite E in ST. destruct (ob_lock b) eqn:L; [|discriminate ST]. destruct (LCK o b E L) as (j & u & k' & f' & NJ & BU & EU & KU). exists j, u. rewrite EU. cbn in *. split; [exact NJ|]. split; [exact BU|congruence].
  - destruct (latched c) eqn:X; [|discriminate ST]. destruct (LTC eq_refl) as (j & u & NJ & BU & [(k & x & EU)|[(k & EU)|EU]]); exists j, u; rewrite EU; cbn; auto.
  - destruct rest as [|o r]; [discriminate ST|]. destruct (proj2 PI i t _ _ N PE) as [_ Q]. inversion Q; subst. destruct (nth_error (c_objs c) o) as [b|] eqn:E; [|apply nth_error_None in E; lia].
    destruct (ob_lock b) eqn:L; [|discriminate ST]. destruct (LCK o b E L) as (j & u & k' & f' & NJ & BU & EU & KU). exists j, u. rewrite EU. cbn. auto.
Qed.

(** the flush cannot go on only with a change other than a deletion, whose row an UPDATE under way has locked *)
Lemma flush_waits c L0 d q : linv V F app c L0 -> pinv c -> c_queue c = d :: q -> cstep c LFlush = None ->
  cd_kind d <> DkDelete /\ exists b j u f, nth_error (c_objs c) (cd_obj d) = Some b /\ nth_error (c_tasks c) j = Some u /\ busy u /\ ct_st u = CUpd (ob_key b) f.
Proof using.
  intros LI PI Q ST. pose proof LI as (_ & TI & OI). cbn in ST. rewrite Q in ST. destruct (blocked (c_objs c) d) eqn:B; [|discriminate ST].
  unfold blocked in B. split; [intros D; rewrite D in B; discriminate B|].
  destruct (nth_error (c_objs c) (cd_obj d)) as [b|] eqn:E; [|destruct (cd_kind d); discriminate B].
  assert (L : ob_lock b = true) by (destruct (cd_kind d); [exact B|exact B|discriminate B] || (destruct (cd_kind d); try exact B; discriminate B)).
  destruct (proj1 PI (cd_obj d) b E L) as (j & u & NJ & LJ). pose proof (ti_fits _ _ _ _ _ TI j u NJ) as FT.
  assert (HO : holds V F u = Some (cd_obj d)) by (unfold holds, ConcDisk.locks in *; destruct (ct_pc u); try discriminate LJ; exact LJ).
  destruct (oi_hold _ _ _ _ _ _ _ OI j u _ NJ HO) as (b2 & E2 & K2). assert (b2 = b) by congruence. subst b2. exists b, j, u.
  unfold ConcDisk.locks, fits, busy, key_of in *. destruct (ct_st u) as [|k f| | |], (ct_pc u); try discriminate LJ; try contradiction; exists f; (split; [reflexivity|]; split; [exact NJ|]; split; [split; discriminate|congruence]).
Qed.

Lemma somebody c L0 : linv V F app c L0 -> pinv c -> ~ at_rest c -> exists l c', going l /\ cstep c l = Some c'.
Proof using.
  intros LI PI NR.
  assert (G : forall i, free c i -> exists l c', going l /\ cstep c l = Some c') by (intros i (c' & E); exists (LGo i), c'; split; [exact Logic.I|exact E]).
  destruct (existsb (fun t => match locks t with Some _ => true | None => false end) (c_tasks c)) eqn:LK.
  { apply existsb_exists in LK as (u & IU & LU). apply In_nth_error in IU as (j & NJ). destruct (locks u) as [o|] eqn:EL; [|discriminate LU]. apply (G j). eapply owner_free; eassumption. }
  assert (NL : forall o b, nth_error (c_objs c) o = Some b -> ob_lock b = false).
  { intros o b E. destruct (ob_lock b) eqn:L; [|reflexivity]. destruct (proj1 PI o b E L) as (j & u & NJ & LJ). apply (exists_none _ _ _ _ _ LK) in NJ. rewrite LJ in NJ. discriminate NJ. }
  assert (FITS : forall j u, nth_error (c_tasks c) j = Some u -> fits V F u) by (intros j u NJ; exact (ti_fits _ _ _ _ _ (proj1 (proj2 LI)) j u NJ)).
  destruct (scanning c) eqn:SC.
  { apply existsb_exists in SC as (u & IU & SU). apply In_nth_error in IU as (j & NJ). apply (G j). apply (scan_free c j u PI NL NJ); [|exact SU].
    specialize (FITS j u NJ). unfold fits, scans in *. destruct (ct_st u), (ct_pc u); try discriminate SU; try contradiction. reflexivity. }
  destruct (latched c) eqn:LT.
  { apply existsb_exists in LT as (u & IU & SU). apply In_nth_error in IU as (j & NJ). apply (G j). apply orb_true_iff in SU as [SU|SU]; [eapply share_free; eassumption|].
    apply (exists_none _ _ _ _ _ SC) in NJ. congruence. }
  destruct (existsb (fun t => match ct_pc t with PDone _ _ => false | _ => true end) (c_tasks c)) eqn:UN.
  - apply existsb_exists in UN as (t & IT & UT). apply In_nth_error in IT as (i & N). apply (G i). apply (free_task _ _ _ N).
    pose proof (FITS i t N) as FT. pose proof (exists_none _ _ _ _ _ LT N) as LTN. cbn beta in LTN. pose proof (exists_none _ _ _ _ _ LK N) as LKN. cbn beta in LKN.
    assert (HLD : forall o, holds V F t = Some o -> exists b, nth_error (c_objs c) o = Some b) by (intros o HO; destruct (oi_hold _ _ _ _ _ _ _ (proj2 (proj2 LI)) i t o N HO) as (b & E & _); eauto).
    unfold step_task, fits, shares, scans, ConcDisk.locks, holds in *. destruct (ct_st t), (ct_pc t); try discriminate UT; try contradiction; try discriminate LTN; try discriminate LKN; rewrite ?SC, ?LT; try discriminate.
    + destruct (c_idx c k); discriminate.
    + destruct (HLD o eq_refl) as (b & E). rewrite E, (NL o b E). discriminate.
    + destruct (c_idx c k); discriminate.
    + destruct (HLD o eq_refl) as (b & E). rewrite E, (NL o b E). discriminate.
  - assert (AL : forall i t, nth_error (c_tasks c) i = Some t -> answered t).
    { intros i t N. apply (exists_none _ _ _ _ _ UN) in N. unfold answered. destruct (ct_pc t); try discriminate N. eauto. }
    destruct (c_queue c) as [|d q] eqn:Q; [exfalso; apply NR; split; assumption|]. exists LFlush.
    assert (B : blocked (c_objs c) d = false) by (unfold blocked; destruct (cd_kind d), (nth_error (c_objs c) (cd_obj d)) as [b|] eqn:E; try reflexivity; eapply NL; exact E).
    cbn. rewrite Q, B. eexists. split; [exact Logic.I|reflexivity].
Qed.

(** ** A bound *)
Definition pend (t : ctask) : nat := match ct_st t, ct_pc t with CIns _ _, (PNew | PInsNum _) => 1 | _, _ => 0 end.
Definition wt (n : nat) (t : ctask) : nat :=
  match ct_pc t with
  | PNew => match ct_st t with CAll => n + 2 | CUpd _ _ => 6 | _ => 4 end
  | PInsNum _ | PDelNum _ => 3 | PInsQ _ _ | PDelQ _ _ => 2
  | PUpdRow _ => 5 | PUpdLock _ => 4 | PUpdNum _ _ => 3 | PUpdQ _ _ => 2
  | PSelRow _ => 1 | PScan rest _ => S (length rest) | PDone _ _ => 0
  end.
Definition tot (f : ctask -> nat) (l : list ctask) : nat := list_sum (map f l).
Definition room (c : cst) : nat := length (c_objs c) + tot pend (c_tasks c).
Definition mu (c : cst) : nat := tot (wt (room c)) (c_tasks c) + length (c_queue c).

Lemma tot_rep f l i t t' : nth_error l i = Some t -> tot f (rep l i t') + f t = tot f l + f t'.
Proof using.
  intros N. destruct (rep_split _ _ _ _ t' N) as (a & b & -> & _ & ->). unfold tot. rewrite !map_app, !list_sum_app. cbn [map list_sum fold_right]. change (fold_right Nat.add 0) with list_sum. lia.
Qed.
Lemma tot_le f g l : (forall t, f t <= g t) -> tot f l <= tot g l.
Proof using. intros H. induction l as [|t l IH]; [apply le_n|]. change (f t + tot f l <= g t + tot g l). specialize (H t). lia. Qed.
Lemma wt_le n n' t : n <= n' -> wt n t <= wt n' t.
Proof using. intros H. unfold wt. destruct (ct_pc t); try lia. destruct (ct_st t); lia. Qed.

Lemma mu_task c i t c' : pinv c -> nth_error (c_tasks c) i = Some t -> step_task app ord c i t = Some c' -> mu c' < mu c.
Proof using ordp.
  intros PI N ST. pose proof (live_le c) as [LL _].
  assert (K : forall objs q t', c_objs c' = objs -> c_queue c' = q -> c_tasks c' = rep (c_tasks c) i t' -> length objs + pend t' <= length (c_objs c) + pend t ->
    wt (room c) t' + length q < wt (room c) t + length (c_queue c) -> mu c' < mu c).
  { intros objs q t' EO EQ ET H1 H2. pose proof (tot_rep pend _ _ _ t' N) as T1. pose proof (tot_rep (wt (room c)) _ _ _ t' N) as T2.
    assert (R : room c' <= room c) by (unfold room; rewrite EO, ET; lia).
    pose proof (tot_le _ _ (c_tasks c') (fun u => wt_le _ _ u R)) as T3. unfold mu. rewrite EQ. rewrite ET in *. lia. }
  assert (RM : length (c_objs c) <= room c) by (unfold room; lia).
  unfold step_task in ST. destruct (ct_st t) eqn:SE; destruct (ct_pc t) eqn:PE; try discriminate ST;
    repeat (match type of ST with context [match ?x with _ => _ end] => destruct x eqn:?; try discriminate ST end); injection ST as <-;
    (eapply K; [reflexivity|reflexivity|cbn [c_tasks go with_objs with_idx queued numbered]; reflexivity| |]);
    unfold pend, wt; cbn [c_objs c_queue go with_objs with_idx queued numbered ct_st ct_pc]; rewrite ?SE, ?PE, ?app_length; cbn [length];
    try (rewrite rep_length by (apply nth_error_Some; congruence)); lia.
Qed.
Lemma mu_step c l c' : pinv c -> going l -> cstep c l = Some c' -> mu c' < mu c.
Proof using ordp.
  intros PI G ST. destruct l as [s|i| |]; try contradiction; cbn in ST.
  - destruct (nth_error (c_tasks c) i) as [t|] eqn:N; [|discriminate ST]. eapply mu_task; eassumption.
  - destruct (c_queue c) as [|d q] eqn:Q; [discriminate ST|]. destruct (blocked (c_objs c) d); [discriminate ST|]. injection ST as <-. unfold mu, room. cbn [c_tasks c_queue c_objs]. rewrite Q. cbn [length]. lia.
Qed.
Lemma mu_run ls : forall c c', pinv c -> Forall going ls -> crun c ls = Some c' -> length ls + mu c' <= mu c.
Proof using ordp.
  induction ls as [|l ls IH]; intros c c' PI G R; cbn in R; [injection R as <-; cbn; lia|]. inversion G; subst. destruct (cstep c l) as [c1|] eqn:E; [|discriminate R].
  pose proof (mu_step _ _ _ PI H1 E). pose proof (IH _ _ (pinv_step _ _ _ PI E) H2 R). cbn [length]. lia.
Qed.
Lemma mu_le c : pinv c -> mu c <= length (c_tasks c) * (length (c_objs c) + length (c_tasks c) + 6) + length (c_queue c).
Proof using.
  intros [_ P2]. unfold mu. apply Nat.add_le_mono_r.
  assert (PN : forall l, tot pend l <= length l).
  { induction l as [|t l IH]; [apply le_n|]. change (pend t + tot pend l <= S (length l)). assert (pend t <= 1) by (unfold pend; destruct (ct_st t), (ct_pc t); lia). lia. }
  pose proof (PN (c_tasks c)) as PNC. set (B := length (c_objs c) + length (c_tasks c) + 6).
  assert (W : forall l, (forall t, In t l -> wt (room c) t <= B) -> tot (wt (room c)) l <= length l * B).
  { induction l as [|t l IH]; intros H; [apply le_n|]. change (wt (room c) t + tot (wt (room c)) l <= B + length l * B). specialize (IH (fun u I => H u (or_intror I))). pose proof (H t (or_introl eq_refl)). lia. }
  apply W. intros t I. apply In_nth_error in I as (i & N). unfold wt, room, B. destruct (ct_pc t) eqn:PE; try lia; [destruct (ct_st t); lia|]. destruct (P2 i t _ _ N PE) as [Q _]. lia.
Qed.
End Live.

(** ** C118 *)

(** As long as a statement is not answered or a change not written, somebody can go on. *)
Theorem C118_somebody_goes_on : forall V F (app : F -> V -> V * bool) ord, (forall l, Permutation (ord l) l) -> forall ls c, crun app ord cst0 ls = Some c ->
  ~ at_rest c -> exists l c', going l /\ cstep app ord c l = Some c'.
Proof.
  intros V F app ord OP ls c R NR. destruct (crun_linv V F app ord ls cst0 [] c (linv0 V F app) R) as (L & LI).
  exact (somebody V F app ord c L LI (pinv_run V F app ord OP ls cst0 c (pinv0 V F) R) NR).
Qed.

(** Whoever goes on, without new statements there is an end after a bounded number of steps; so, by the
    theorem before, every way to go on ends with all statements answered and all changes written. *)
Theorem C118_bounded : forall V F (app : F -> V -> V * bool) ord, (forall l, Permutation (ord l) l) -> forall ls c, crun app ord cst0 ls = Some c ->
  forall ls' c', Forall going ls' -> crun app ord c ls' = Some c' ->
  length ls' <= length (c_tasks c) * (length (c_objs c) + length (c_tasks c) + 6) + length (c_queue c).
Proof.
  intros V F app ord OP ls c R ls' c' G R'. pose proof (pinv_run V F app ord OP ls cst0 c (pinv0 V F) R) as PI.
  pose proof (mu_run V F app ord OP ls' c c' PI G R'). pose proof (mu_le V F c PI). lia.
Qed.
(** ... and there is such a way, from wherever the others left off. *)
Theorem C118_comes_to_rest : forall V F (app : F -> V -> V * bool) ord, (forall l, Permutation (ord l) l) -> forall ls c, crun app ord cst0 ls = Some c ->
  exists ls' c', Forall going ls' /\ crun app ord c ls' = Some c' /\ at_rest c'.
Proof.
  intros V F app ord OP ls c R.
  assert (K : forall n ls c, crun app ord cst0 ls = Some c -> mu V F c <= n -> exists ls' c', Forall going ls' /\ crun app ord c ls' = Some c' /\ at_rest c').
  { clear ls c R. induction n as [|n IH]; intros ls c R M.
    - assert (D : at_rest c \/ ~ at_rest c).
      { unfold at_rest. destruct (c_queue c) as [|d q] eqn:Q; [|right; intros [_ X]; discriminate X].
        destruct (forallb (fun t => match ct_pc t with PDone _ _ => true | _ => false end) (c_tasks c)) eqn:AL.
        - left. split; [|reflexivity]. intros i t N. rewrite forallb_forall in AL. specialize (AL t (nth_error_In _ _ N)). unfold answered. destruct (ct_pc t); try discriminate AL. eauto.
        - right. intros [X _]. assert (forallb (fun t : ctask V F => match ct_pc t with PDone _ _ => true | _ => false end) (c_tasks c) = true); [|congruence].
          apply forallb_forall. intros t I. apply In_nth_error in I as (i & N). destruct (X i t N) as (a & m & ->). reflexivity. }
      destruct D as [D|D]; [exists [], c; repeat split; [constructor|apply D|apply D]|].
      destruct (C118_somebody_goes_on V F app ord OP ls c R D) as (l & c1 & G & E).
      pose proof (mu_step V F app ord OP c l c1 (pinv_run V F app ord OP ls cst0 c (pinv0 V F) R) G E). lia.
    - assert (D : at_rest c \/ ~ at_rest c).
      { unfold at_rest. destruct (c_queue c) as [|d q] eqn:Q; [|right; intros [_ X]; discriminate X].
        destruct (forallb (fun t => match ct_pc t with PDone _ _ => true | _ => false end) (c_tasks c)) eqn:AL.
        - left. split; [|reflexivity]. intros i t N. rewrite forallb_forall in AL. specialize (AL t (nth_error_In _ _ N)). unfold answered. destruct (ct_pc t); try discriminate AL. eauto.
        - right. intros [X _]. assert (forallb (fun t : ctask V F => match ct_pc t with PDone _ _ => true | _ => false end) (c_tasks c) = true); [|congruence].
          apply forallb_forall. intros t I. apply In_nth_error in I as (i & N). destruct (X i t N) as (a & m & ->). reflexivity. }
      destruct D as [D|D]; [exists [], c; repeat split; [constructor|apply D|apply D]|].
      destruct (C118_somebody_goes_on V F app ord OP ls c R D) as (l & c1 & G & E).
      pose proof (mu_step V F app ord OP c l c1 (pinv_run V F app ord OP ls cst0 c (pinv0 V F) R) G E).
      destruct (IH (ls ++ [l]) c1) as (ls' & c' & G' & R' & A').
      + rewrite (crun_app V F app ord), R. cbn. rewrite E. reflexivity.
      + lia.
      + exists (l :: ls'), c'. split; [constructor; assumption|]. split; [cbn; rewrite E; exact R'|exact A']. }
  exact (K (mu V F c) ls c R (le_n _)).
Qed.

(** Whom a statement waits for: INSERT and DELETE only for a SELECT ALL, UPDATE and SELECT only for an UPDATE of the
    same row, SELECT ALL for an INSERT, DELETE, SELECT ALL or UPDATE; always for one that is under way. *)
Theorem C118_waits_only : forall V F (app : F -> V -> V * bool) ord, (forall l, Permutation (ord l) l) -> forall ls c i t, crun app ord cst0 ls = Some c ->
  nth_error (c_tasks c) i = Some t -> ~ answered t -> cstep app ord c (LGo i) = None ->
  exists j u, nth_error (c_tasks c) j = Some u /\ busy u /\ may_wait (ct_st t) (ct_st u).
Proof.
  intros V F app ord OP ls c i t R N NA ST. destruct (crun_linv V F app ord ls cst0 [] c (linv0 V F app) R) as (L & LI).
  exact (waits_for V F app ord c L i t LI (pinv_run V F app ord OP ls cst0 c (pinv0 V F) R) N NA ST).
Qed.

(** Whom the flush waits for: an UPDATE under way of the row of the oldest change, and nobody if that change is a
    deletion. *)
Theorem C118_flush_waits_only : forall V F (app : F -> V -> V * bool) ord, (forall l, Permutation (ord l) l) -> forall ls c d q, crun app ord cst0 ls = Some c ->
  c_queue c = d :: q -> cstep app ord c LFlush = None ->
  cd_kind d <> DkDelete /\ exists b j u f, nth_error (c_objs c) (cd_obj d) = Some b /\ nth_error (c_tasks c) j = Some u /\ busy u /\ ct_st u = CUpd (ob_key b) f.
Proof.
  intros V F app ord OP ls c d q R Q ST. destruct (crun_linv V F app ord ls cst0 [] c (linv0 V F app) R) as (L & LI).
  exact (flush_waits V F app ord c L d q LI (pinv_run V F app ord OP ls cst0 c (pinv0 V F) R) Q ST).
Qed.

(** two rows; an UPDATE of row 1 has the lock, another waits for it, a SELECT ALL waits at row 1, an INSERT waits for
    the SELECT ALL, and the flush waits for row 1; twelve steps later everything is answered and written *)
Definition cy_ls : list (clab rfields (list assign)) :=
  cx_ins 0 1 10 ++ cx_ins 1 2 20 ++ [LStart (CUpd (cx_k 1) (cx_set 11)); LStart (CUpd (cx_k 1) (cx_set 12)); LStart CAll; LStart (CIns (cx_k 3) (cx_row 30)); LGo 2; LGo 3; LGo 2; LGo 4].
Definition cy_go : list (clab rfields (list assign)) := [LGo 2; LGo 2; LGo 2; LFlush; LGo 3; LGo 3; LGo 3; LGo 3; LFlush; LGo 4; LGo 4; LGo 4; LGo 5; LGo 5; LGo 5; LFlush; LFlush; LFlush].
Example C118_example :
  option_map (fun c => (map (fun l => match cstep cx_app cx_ord c l with Some _ => true | None => false end) [LGo 2; LGo 3; LGo 4; LGo 5; LFlush],
                        match crun cx_app cx_ord c cy_go with
                        | Some c' => (forallb (fun t => match ct_pc t with PDone _ _ => true | _ => false end) (c_tasks c'), List.length (c_queue c'))
                        | None => (false, 9) end)) (cx_run cy_ls) = Some ([true; false; false; false; false], (true, 0)).
Proof. vm_compute. reflexivity. Qed.
Print Assumptions C118_somebody_goes_on.
Print Assumptions C118_bounded.
Print Assumptions C118_comes_to_rest.
Print Assumptions C118_waits_only.
Print Assumptions C118_flush_waits_only.
