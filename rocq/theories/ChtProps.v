(** C65-C69: the row index used by any number of threads. *)
From Coq Require Import List Arith NArith ZArith Bool Lia.
From Verif Require Import MtModel MtSpec MtProofs ChtModel ChtSpec ChtHeap ChtMap ChtRel ChtSim ChtSteps ChtScan ChtCount.
Import ListNotations.
Local Open Scope nat_scope.

Definition decides {A} (f : A -> A -> bool) : Prop := forall a b, f a b = true <-> a = b.
Definition quiet {K V} (s : st K V) : Prop := forall t, pcs s t = Idle.

(** * C65: linearizability *)

(** No schedule of any threads making any calls leads to a read of freed memory, a double retirement, an index out
    of bounds or a panic. *)
Theorem C65_no_undefined : forall K V (keq : K -> K -> bool) (hash : K -> N) sch, decides keq -> run K V keq hash (init K V) sch <> Bad.
Proof.
  intros K V keq hash sch HK E. pose proof (run_ok K V keq HK hash sch _ _ (fun _ => []) (R_init K V keq hash _)) as Q. rewrite E in Q. exact Q.
Qed.

(** What the threads see is what they would see of a map used in one atomic step per call. *)
Theorem C65_linearizable : forall K V (keq : K -> K -> bool) (hash : K -> N) sch s e, decides keq -> run K V keq hash (init K V) sch = Next s e ->
  exists A, asteps keq (ainit K V) e A /\ (quiet s -> forall t, ath A t = AIdle).
Proof.
  intros K V keq hash sch s e HK E. pose proof (run_ok K V keq HK hash sch _ _ (fun _ => []) (R_init K V keq hash _)) as Q. rewrite E in Q. destruct Q as (A & pos & St & H). exists A. split; [exact St|].
  intros Qs t. pose proof (r_rel _ _ _ _ _ _ _ H t) as Re. rewrite (Qs t) in Re. exact Re.
Qed.

Lemma run_app K V keq hash : forall a b (s : st K V), run K V keq hash s (a ++ b) = match run K V keq hash s a with Next s' e => match run K V keq hash s' b with Next s'' e' => Next s'' (e ++ e') | o => o end | o => o end.
Proof.
  induction a as [|(t, x) a IH]; intros b s; cbn [app run]; [destruct (run K V keq hash s b); reflexivity|]. destruct (step K V keq hash s t x) as [| |s1 e1]; try reflexivity. rewrite IH. destruct (run K V keq hash (tick K V s1) a) as [| |s2 e2]; try reflexivity. destruct (run K V keq hash s2 b) as [| |s3 e3]; try reflexivity. rewrite app_assoc. reflexivity.
Qed.

(** A thread inside a call can always take its next step: none waits for another. *)
Theorem C65_never_blocked : forall K V (keq : K -> K -> bool) (hash : K -> N) sch s e t, decides keq -> run K V keq hash (init K V) sch = Next s e -> pcs s t <> Idle ->
  exists s' e', run K V keq hash (init K V) (sch ++ [(t, ARun K V)]) = Next s' (e ++ e').
Proof.
  intros K V keq hash sch s e t HK E Np. pose proof (C65_no_undefined K V keq hash (sch ++ [(t, ARun K V)]) HK) as NB. rewrite run_app, E in *. cbn [run] in *. cbn [step] in *.
  destruct (run1 K V keq hash s t) as [| |s1 e1] eqn:R1; [|congruence|exists (tick K V s1), (e1 ++ []); reflexivity]. exfalso. clear NB. unfold run1 in R1.
  destruct (pcs s t) as [|m e0 l n par|m e0 l n par old w|k l hh|k l n lv|k l n lv a d r|r lv i c|ct p c acc|ct p c acc| |r| |sk acc| |r]; try discriminate R1; try congruence.
  - unfold wload in R1. destruct (rd K V _ _ l) as [(x, [|])|]; [destruct x, par as [(pl, c)|]; discriminate R1| |discriminate R1]. destruct x as [|a|a]; [destruct m; discriminate R1| |destruct (n <? 16); discriminate R1]. destruct (rdleaf _ _ _ _ _); [|discriminate R1]. destruct (wleaf _ _ _ _ _ _ _ _); discriminate R1.
  - unfold wcas in R1. destruct (cas_ok _ _ _ _ _ _) as [[|]|]; try discriminate R1. destruct w; [|discriminate R1]. destruct (out _ _ _ _ _); discriminate R1.
  - unfold gload in R1. destruct (rd _ _ _ _ _) as [(x, g)|]; [|discriminate R1]. destruct x; try discriminate R1. destruct (rdleaf _ _ _ _ _); discriminate R1.
  - unfold rload in R1. destruct (rd _ _ _ _ _) as [(x, g)|]; [|discriminate R1]. destruct x as [|a|a], g; try discriminate R1; try (destruct lv as [|(pl, c) lv]; discriminate R1); [destruct (rdleaf _ _ _ _ _); discriminate R1|destruct (_ && _); discriminate R1].
  - unfold rcas in R1. destruct (cas_ok _ _ _ _ _ _) as [[|]|]; try discriminate R1. cbn zeta in R1. destruct (out _ _ _ _ _); discriminate R1.
  - unfold rcount in R1. destruct lv as [|(p, b) rest]; [discriminate R1|]. destruct (i <? branch_mx); [destruct (rd _ _ _ _ _) as [(x, g)|]; discriminate R1|]. destruct (1 <? c); discriminate R1.
  - unfold freeze in R1. destruct (_ <? _); [|discriminate R1]. destruct (rd _ _ _ _ _) as [(x, g)|]; [|discriminate R1]. destruct x as [|a|a]; [discriminate R1| |discriminate R1]. destruct (rdleaf _ _ _ _ _); discriminate R1.
  - unfold ccas in R1. destruct (cas_ok _ _ _ _ _ _) as [[|]|]; try discriminate R1. cbn zeta in R1. destruct (decide acc); destruct (out _ _ _ _ _); discriminate R1.
  - unfold srun in R1. destruct sk as [|(x, i) r]; [discriminate R1|]. destruct x as [|a|a]; [discriminate R1| |].
    + destruct (rdleaf _ _ _ _ _) as [d|]; [|discriminate R1]. destruct (nth_error d i); discriminate R1.
    + destruct (i <? max_tree_height); [|discriminate R1]. destruct (rd _ _ _ _ _) as [(x, g)|]; [|discriminate R1]. destruct (_ <? _); discriminate R1.
Qed.

(** * C66: scans *)
Section Scans.
Variables K V : Type.
Variable keq : K -> K -> bool.
Notation ast := (ast K V).
Notation event := (event K V).
Notation astep := (astep K V keq).
Notation asteps := (@ChtSpec.asteps K V keq).
(** the specification, with the maps it passes *)
Inductive passes : ast -> list event -> list (amap K V) -> ast -> Prop :=
| pass_refl s : passes s [] [am s] s
| pass_step s e s' e' ms s'' : astep s e s' -> passes s' e' ms s'' -> passes s (e ++ e') (am s :: ms) s''.
Definition of_thread (t : nat) (x : event) : Prop := match x with EInv u _ | ERet u _ => u = t end.

Lemma passes_asteps a e b : asteps a e b -> exists ms, passes a e ms b.
Proof. induction 1 as [s|s e s' e' s'' St As (ms & Ps)]; [eexists; apply pass_refl|eexists; eapply pass_step; eassumption]. Qed.
Lemma asteps_split a e b : asteps a e b -> forall e1 e2, e = e1 ++ e2 -> exists c, asteps a e1 c /\ asteps c e2 b.
Proof.
  induction 1 as [s|s e s' e' s'' St As IH]; intros e1 e2 E.
  - symmetry in E. apply app_eq_nil in E. destruct E as (-> & ->). exists s. split; apply as_refl.
  - assert (L : e = [] \/ exists x, e = [x]) by (destruct St; eauto). destruct L as [->|(x & ->)].
    + cbn in E. destruct (IH e1 e2 E) as (c & A1 & A2). exists c. split; [change e1 with ([] ++ e1); exact (as_step K V keq _ _ _ _ _ St A1)|exact A2].
    + destruct e1 as [|y e1].
      * cbn in E. subst e2. exists s. split; [apply as_refl|]. exact (as_step K V keq _ _ _ _ _ St As).
      * cbn in E. injection E as <- E. destruct (IH e1 e2 E) as (c & A1 & A2). exists c. split; [change (x :: e1) with ([x] ++ e1); exact (as_step K V keq _ _ _ _ _ St A1)|exact A2].
Qed.
(** a thread whose events are not shown *)
Lemma passes_scan t : forall a e ms b, passes a e ms b -> (forall x, In x e -> ~ of_thread t x) -> forall (se : K * V -> Prop) (al : K -> Prop) r,
  ath a t = AScan se al -> ath b t = AReady r ->
  exists l, r = RList l /\ NoDup (map fst l) /\ (forall x, In x l -> se x \/ exists m, In m ms /\ m (fst x) = Some x) /\ (forall k, al k -> (forall m, In m ms -> m k <> None) -> In k (map fst l)).
Proof.
  induction 1 as [s|s e s' e' ms s'' St Ps IH]; intros Ne se al r Ea Eb; [congruence|].
  assert (Ne' : forall x, In x e' -> ~ of_thread t x) by (intros x Hx; apply Ne; apply in_or_app; auto).
  assert (PA : forall a e ms b, passes a e ms b -> In (am a) ms) by (intros ? ? ? ? []; left; reflexivity). pose proof (PA _ _ _ _ Ps) as Hm.
  assert (RD : forall e ms a b, passes a e ms b -> (forall x, In x e -> ~ of_thread t x) -> forall r0, ath a t = AReady r0 -> ath b t = AReady r0).
  { clear. induction 1 as [s|s e s' e' ms s'' St Ps IH]; intros Ne r0 E; [exact E|]. apply IH; [intros x Hx; apply Ne; apply in_or_app; auto|]. destruct St as [m th u o|m th u o m' r1 Eo Em|m th u se al l Es N1 N2 N3|m th u n Eu|m th u r1 Er]; cbn [ath] in *; unfold fup; destruct (t =? u) eqn:C; try exact E; try (apply Nat.eqb_eq in C; subst u; try congruence).
    - rewrite E. reflexivity.
    - exfalso. apply (Ne (ERet t r1)); [left; reflexivity|reflexivity]. }
  destruct St as [m th u o Ho|m th u o m' r1 Eo Em|m th u se0 al0 l Es N1 N2 N3|m th u n Eu|m th u r1 Er]; cbn [ath am] in *.
  - destruct (Nat.eq_dec u t) as [->|N]; [congruence|]. specialize (IH Ne' se al r). cbn [ath] in IH. rewrite fup_other in IH by (intros Q; apply N; symmetry; exact Q). destruct (IH Ea Eb) as (l & -> & Nd & I1 & I2). exists l. split; [reflexivity|]. split; [exact Nd|]. split.
    + intros x Hx. destruct (I1 x Hx) as [Q|(m0 & H0 & Q)]; [auto|right; exists m0; split; [right; exact H0|exact Q]].
    + intros k Hk Hall. apply I2; [exact Hk|]. intros m0 H0. apply Hall. right. exact H0.
  - destruct (Nat.eq_dec u t) as [->|N]; [congruence|]. specialize (IH Ne' (fun x => se x \/ m' (fst x) = Some x) (fun k => al k /\ m' k <> None) r). cbn [ath] in IH. rewrite fup_other in IH by (intros Q; apply N; symmetry; exact Q). rewrite Ea in IH. destruct (IH eq_refl Eb) as (l & -> & Nd & I1 & I2). exists l. split; [reflexivity|]. split; [exact Nd|]. split.
    + intros x Hx. destruct (I1 x Hx) as [[Q|Q]|(m0 & H0 & Q)]; [auto|right; exists m'; split; [right; exact Hm|exact Q]|right; exists m0; split; [right; exact H0|exact Q]].
    + intros k Hk Hall. apply I2; [split; [exact Hk|apply Hall; right; exact Hm]|]. intros m0 H0. apply Hall. right. exact H0.
  - destruct (Nat.eq_dec u t) as [->|N].
    + rewrite Ea in Es. injection Es as <- <-. pose proof (RD _ _ _ _ Ps Ne' (RList l)) as Q. cbn [ath] in Q. rewrite fup_same in Q. specialize (Q eq_refl). rewrite Eb in Q. injection Q as ->. exists l. split; [reflexivity|]. split; [exact N1|]. split; [auto|auto].
    + specialize (IH Ne' se al r). cbn [ath] in IH. rewrite fup_other in IH by (intros Q; apply N; symmetry; exact Q). destruct (IH Ea Eb) as (l0 & -> & Nd & I1 & I2). exists l0. split; [reflexivity|]. split; [exact Nd|]. split.
      * intros x Hx. destruct (I1 x Hx) as [Q|(m0 & H0 & Q)]; [auto|right; exists m0; split; [right; exact H0|exact Q]].
      * intros k Hk Hall. apply I2; [exact Hk|]. intros m0 H0. apply Hall. right. exact H0.
  - destruct (Nat.eq_dec u t) as [->|N]; [congruence|]. specialize (IH Ne' se al r). cbn [ath] in IH. rewrite fup_other in IH by (intros Q; apply N; symmetry; exact Q). destruct (IH Ea Eb) as (l & -> & Nd & I1 & I2). exists l. split; [reflexivity|]. split; [exact Nd|]. split.
    + intros x Hx. destruct (I1 x Hx) as [Q|(m0 & H0 & Q)]; [auto|right; exists m0; split; [right; exact H0|exact Q]].
    + intros k Hk Hall. apply I2; [exact Hk|]. intros m0 H0. apply Hall. right. exact H0.
  - destruct (Nat.eq_dec u t) as [->|N]; [congruence|]. specialize (IH Ne' se al r). cbn [ath] in IH. rewrite fup_other in IH by (intros Q; apply N; symmetry; exact Q). destruct (IH Ea Eb) as (l & -> & Nd & I1 & I2). exists l. split; [reflexivity|]. split; [exact Nd|]. split.
    + intros x Hx. destruct (I1 x Hx) as [Q|(m0 & H0 & Q)]; [auto|right; exists m0; split; [right; exact H0|exact Q]].
    + intros k Hk Hall. apply I2; [exact Hk|]. intros m0 H0. apply Hall. right. exact H0.
Qed.
(** the step that shows an event comes between steps that show nothing *)
Lemma show_split a x b : asteps a [x] b -> exists c d, asteps a [] c /\ astep c [x] d /\ asteps d [] b.
Proof.
  intros As. remember [x] as e eqn:E. induction As as [s|s e s' e' s'' St As IH]; [discriminate|]. destruct St as [m th u o|m th u o m' r1|m th u se0 al0 l|m th u n|m th u r1]; cbn [app] in E.
  - injection E as Ex Ee. subst e'. cbn [app]. exists (MkA m th), (MkA m (fup th u (acall K V m o))). split; [apply as_refl|]. split; [constructor; assumption|exact As].
  - destruct (IH E) as (c & d & A1 & A2 & A3). exists c, d. split; [|auto]. change (@nil event) with (@nil event ++ []). eapply as_step; [|exact A1]. econstructor; eassumption.
  - destruct (IH E) as (c & d & A1 & A2 & A3). exists c, d. split; [|auto]. change (@nil event) with (@nil event ++ []). eapply as_step; [|exact A1]. econstructor; eassumption.
  - destruct (IH E) as (c & d & A1 & A2 & A3). exists c, d. split; [|auto]. change (@nil event) with (@nil event ++ []). eapply as_step; [|exact A1]. econstructor; eassumption.
  - injection E as Ex Ee. subst e'. cbn [app]. exists (MkA m th), (MkA m (fup th u (AIdle))). split; [apply as_refl|]. split; [constructor; assumption|exact As].
Qed.
Lemma asteps_app a b c e e' : asteps a e b -> asteps b e' c -> asteps a (e ++ e') c.
Proof. induction 1 as [s|s e s' e2 s'' St As IH]; intros B; [exact B|]. rewrite <- app_assoc. eapply as_step; [exact St|exact (IH B)]. Qed.
End Scans.

(** A scan that runs while others write: there is one order of all the calls such that the answer has no key twice,
    every pair of the answer was in the map at some moment between call and return, and every key that was in the map
    at all those moments is in the answer. *)
Theorem C66_scan : forall K V (keq : K -> K -> bool) (hash : K -> N) sch s e0 e1 e2 t l, decides keq ->
  run K V keq hash (init K V) sch = Next s (e0 ++ EInv t (OScan) :: e1 ++ ERet t (RList l) :: e2) -> (forall x, In x e1 -> ~ of_thread K V t x) ->
  exists A0 ms A1 A2, asteps keq (ainit K V) e0 A0 /\ passes K V keq A0 (EInv t (OScan) :: e1) ms A1 /\ asteps keq A1 (ERet t (RList l) :: e2) A2 /\
  NoDup (map fst l) /\ (forall x, In x l -> exists m, In m ms /\ m (fst x) = Some x) /\ (forall k, (forall m, In m ms -> m k <> None) -> In k (map fst l)).
Proof.
  intros K V keq hash sch s e0 e1 e2 t l HK E Ne. destruct (C65_linearizable K V keq hash sch s _ HK E) as (A & As & _).
  destruct (asteps_split K V keq _ _ _ As e0 (EInv t (OScan) :: e1 ++ ERet t (RList l) :: e2) eq_refl) as (A0 & P0 & As1).
  destruct (asteps_split K V keq _ _ _ As1 [EInv t (OScan)] (e1 ++ ERet t (RList l) :: e2) eq_refl) as (B0 & P1 & As2).
  destruct (asteps_split K V keq _ _ _ As2 e1 (ERet t (RList l) :: e2) eq_refl) as (B1 & P2 & As3).
  destruct (asteps_split K V keq _ _ _ As3 [ERet t (RList l)] e2 eq_refl) as (B2 & P3 & P4).
  destruct (show_split K V keq _ _ _ P1) as (C & D & Q1 & Q2 & Q3). destruct (show_split K V keq _ _ _ P3) as (C' & D' & Q1' & Q2' & Q3').
  pose proof (asteps_app K V keq _ _ _ _ _ Q3 (asteps_app K V keq _ _ _ _ _ P2 Q1')) as Mid. cbn [app] in Mid. rewrite app_nil_r in Mid. destruct (passes_asteps K V keq _ _ _ Mid) as (ms & Ps).
  assert (Dt : ath D t = AScan (fun x => am C (fst x) = Some x) (fun k => am C k <> None)).
  { inversion Q2; subst. cbn. apply fup_same. }
  assert (Mc : am D = am C) by (inversion Q2; subst; reflexivity).
  assert (Ct : ath C' t = AReady (RList l)) by (inversion Q2'; subst; assumption).
  destruct (passes_scan K V keq t D e1 ms C' Ps Ne _ _ _ Dt Ct) as (l' & El & Nd & I1 & I2). injection El as <-.
  assert (Hm : In (am D) ms) by (inversion Ps; subst; left; reflexivity).
  exists C, (am C :: ms), C', A. split; [rewrite <- (app_nil_r e0); exact (asteps_app K V keq _ _ _ _ _ P0 Q1)|]. split; [change (EInv t (OScan) :: e1) with ([EInv t (OScan)] ++ e1); exact (pass_step K V keq _ _ _ _ _ _ Q2 Ps)|].
  split; [change (ERet t (RList l) :: e2) with ([ERet t (RList l)] ++ e2); apply (as_step K V keq _ _ _ _ _ Q2'); exact (asteps_app K V keq _ _ _ _ _ Q3' P4)|]. split; [exact Nd|]. split.
  - intros x Hx. destruct (I1 x Hx) as [Q|(m & H1 & H2)]; [exists (am C); split; [left; reflexivity|exact Q]|exists m; split; [right; exact H1|exact H2]].
  - intros k Hk. apply I2; [apply Hk; left; reflexivity|]. intros m H1. apply Hk. right. exact H1.
Qed.

(** * C67: memory *)
(** At every moment a block that was allocated and not handed to the collector is reached from the root (nothing
    leaks), and what is reached from the root was not handed to the collector (nothing is freed while in use). *)
Theorem C67_memory : forall K V (keq : K -> K -> bool) (hash : K -> N) sch s e a, decides keq -> run K V keq hash (init K V) sch = Next s e ->
  (mem (hp s) a <> BNone /\ rtd (hp s) a = None) <-> (reach K V (hp s) (PLeaf a) \/ reach K V (hp s) (PBr a)).
Proof.
  intros K V keq hash sch s e a HK E. pose proof (run_ok K V keq HK hash sch _ _ (fun _ => []) (R_init K V keq hash _)) as Q. rewrite E in Q. destruct Q as (A & pos & _ & H). pose proof (r_inv _ _ _ _ _ _ _ H) as I. split.
  - intros (N & Ra). exact (live_reach K V hash _ _ _ I a N Ra).
  - intros Re. exact (reach_live K V hash _ _ _ I a Re).
Qed.
(** What was handed to the collector may be freed once every thread that was in a guard then has left it: by
    [C65_no_undefined] no thread reads a block that may be freed. *)
Definition freeable {K V} (s : st K V) (a : nat) : Prop := exists u, rtd (hp s) a = Some u /\ forall t, In t (pinned s) -> u <= pin s t.
(** With no thread in a guard, exactly what is not reached from the root can be freed. *)
Theorem C67_collectable : forall K V (keq : K -> K -> bool) (hash : K -> N) sch s e a, decides keq -> run K V keq hash (init K V) sch = Next s e -> pinned s = [] -> mem (hp s) a <> BNone ->
  freeable s a <-> ~ (reach K V (hp s) (PLeaf a) \/ reach K V (hp s) (PBr a)).
Proof.
  intros K V keq hash sch s e a HK E P N. rewrite <- (C67_memory K V keq hash sch s e a HK E). unfold freeable. rewrite P. split.
  - intros (u & Ru & _) (_ & Q). congruence.
  - intros Q. destruct (rtd (hp s) a) as [u|] eqn:Ru; [exists u; split; [reflexivity|intros t []]|exfalso; apply Q; auto].
Qed.

(** * C68: the size *)
(** the number of keys: [m] is the map the calls so far lead to *)
Theorem C68_size_partial : forall K V (keq : K -> K -> bool) (hash : K -> N) sch s e, decides keq -> run K V keq hash (init K V) sch = Next s e ->
  exists A n, asteps keq (ainit K V) e A /\ size K V (am A) n /\ (len s < 2 ^ 64)%N /\
  same64 (Z.of_N (len s) + sum (map (fun t => pend K V (pcs s t)) (pinned s))) (Z.of_nat n).
Proof.
  intros K V keq hash sch s e HK E. pose proof (run_ok K V keq HK hash sch _ _ (fun _ => []) (R_init K V keq hash _)) as Q. pose proof (cnt_run K V keq HK hash sch _ _ (fun _ => []) s e (R_init K V keq hash _) (cnt_init K V keq hash) E) as C. rewrite E in Q. destruct Q as (A & pos & St & H).
  destruct C as [_ (n & Sz & B) L]. exists A, n. split; [exact St|]. split; [exact (size_ext K V _ _ _ (r_map _ _ _ _ _ _ _ H) Sz)|]. split; [exact L|exact B].
Qed.
Lemma same_small a b : same64 a b -> (0 <= a < 2 ^ 64)%Z -> a = (b mod 2 ^ 64)%Z.
Proof. intros (q & ->) L. unfold modulus in *. rewrite <- (Z_mod_plus_full b q), Z.mod_small by exact L. reflexivity. Qed.
(** When no call is under way, the size is the number of keys (modulo 2^64), and a call of [len] answers it. *)
Theorem C68_quiet_size : forall K V (keq : K -> K -> bool) (hash : K -> N) sch s e, decides keq -> run K V keq hash (init K V) sch = Next s e -> quiet s ->
  exists A n, asteps keq (ainit K V) e A /\ size K V (am A) n /\
  forall t, In t (pinned s) -> exists s', run K V keq hash (init K V) (sch ++ [(t, ACall K V (OLen)); (t, ARun K V); (t, ARun K V)]) =
    Next s' (e ++ [EInv t (OLen); ERet t (RLen (N.of_nat n mod 2 ^ 64))]).
Proof.
  intros K V keq hash sch s e HK E Q. destruct (C68_size_partial K V keq hash sch s e HK E) as (A & n & St & Sz & L & B). exists A, n. split; [exact St|]. split; [exact Sz|]. intros t Ht.
  assert (Z0 : sum (map (fun t => pend K V (pcs s t)) (pinned s)) = 0%Z). { induction (pinned s) as [|u l IH]; [reflexivity|]. cbn. rewrite (Q u). cbn. destruct l; [reflexivity|]. clear - Q. induction (n0 :: l) as [|x l0 IH]; [reflexivity|]. cbn. rewrite (Q x). exact IH. }
  rewrite Z0, Z.add_0_r in B. apply same_small in B; [|change (2 ^ 64)%Z with (Z.of_N (2 ^ 64)); lia].
  assert (El : len s = (N.of_nat n mod 2 ^ 64)%N). { apply N2Z.inj. rewrite N2Z.inj_mod, B, nat_N_Z. reflexivity. }
  rewrite run_app, E. cbn [run step]. rewrite (Q t). destruct (inb t (pinned s)) eqn:Pi; [|exfalso; assert (inb t (pinned s) = true) by (apply inb_iff; exact Ht); congruence].
  unfold run1, set_pc, tick. cbn [start ChtModel.pcs]. rewrite fup_same. unfold go, set_pc. cbn [ChtModel.pcs ChtModel.hp ChtModel.time ChtModel.pinned ChtModel.pin ChtModel.len]. rewrite fup_same. cbn [app]. rewrite El. eexists. reflexivity.
Qed.

(** The full statement (an answer of [len] is always the number of keys at some moment of the call) is false: one
    pair is ever inserted, and [len] answers 2^64 - 1. *)
Definition hash_id (n : N) : N := n.
Notation nrun := (run N N N.eqb hash_id (init N N)).
Definition starts (t : nat) := (t, APin N N).
Definition calls (t : nat) (o : op N N) := (t, ACall N N o).
Definition goes (n t : nat) := repeat (t, ARun N N) n.
Theorem C68_len_refuted : exists sch s e, nrun sch = Next s e /\ In (ERet 2 (RLen (2 ^ 64 - 1))) e /\
  (forall t o, In (t, ACall N N o) sch -> o = OWrite Fresh (7, 70)%N \/ o = ODel 7%N \/ o = OLen).
Proof.
  exists (map starts [0; 1; 2] ++ calls 0 (OWrite Fresh (7, 70)%N) :: goes 2 0 ++ calls 1 (ODel 7%N) :: goes 3 1 ++ calls 2 (OLen) :: goes 2 2).
  eexists. eexists. split; [vm_compute; reflexivity|]. split; [vm_compute; tauto|]. intros t o Hin. cbn in Hin. repeat (destruct Hin as [Hin|Hin]; [first [injection Hin as <- <-; tauto|discriminate Hin]|]). destruct Hin.
Qed.

(** * C69: lookups *)
(** Whatever the others do, a lookup ends with the 18th of its own steps or before: if it has not returned, it took
    fewer. *)
Theorem C69_wait_free : forall K V (keq : K -> K -> bool) (hash : K -> N) sch1 t k sch2 s e s' e', decides keq ->
  run K V keq hash (init K V) sch1 = Next s e -> run K V keq hash (init K V) (sch1 ++ (t, ACall K V (OGet k)) :: sch2) = Next s' (e ++ EInv t (OGet k) :: e') ->
  (forall o, ~ In (t, ACall K V o) sch2) -> (forall r, ~ In (ERet t r) e') -> runs K V t sch2 < 18.
Proof.
  intros K V keq hash sch1 t k sch2 s e s' e' HK E1 E2 NC NR. apply Nat.lt_nge. intros L. rewrite run_app, E1 in E2. cbn [run] in E2.
  pose proof (run_ok K V keq HK hash sch1 _ _ (fun _ => []) (R_init K V keq hash _)) as Q. rewrite E1 in Q. destruct Q as (A & pos & _ & H). pose proof (step_ok K V keq HK hash s A pos t H (ACall K V (OGet k))) as S1.
  destruct (step K V keq hash s t (ACall K V (OGet k))) as [| |s1 e1] eqn:St; try discriminate E2. destruct S1 as (A1 & pos1 & _ & R1 & _). destruct (run K V keq hash (tick K V s1) sch2) as [| |s2 e2] eqn:Rn; try discriminate E2. injection E2 as <- Ee.
  cbn [step] in St. destruct (pcs s t) eqn:Ep; try discriminate St. destruct (inb t (pinned s)); [|discriminate St]. injection St as <- <-. apply app_inv_head in Ee. cbn [app] in Ee. injection Ee as <-.
  assert (Lk : looking K V hash (tick K V (set_pc K V s (hp s) t (start K V hash (OGet k)))) pos1 t 18).
  { unfold looking. cbn [tick set_pc ChtModel.pcs]. rewrite fup_same. cbn [start]. exists 0. split; [|reflexivity]. split; [reflexivity|exact Logic.I]. }
  destruct (look_run K V keq HK hash sch2 _ _ _ t 18 _ _ R1 Lk NC Rn L) as (r & Hr). exact (NR r Hr).
Qed.

(** * Examples: the hypotheses hold of schedules in which threads meet *)
(** a schedule without the choices that are not possible *)
Fixpoint possible (s : st N N) (sch : list (nat * act N N)) : list (nat * act N N) :=
  match sch with
  | [] => []
  | (t, a) :: r => match step N N N.eqb hash_id s t a with Next s' _ => (t, a) :: possible (tick N N s') r | _ => possible s r end
  end.
(** two inserts of keys with the same first chunk race (a split), a removal compresses while a lookup and a scan run *)
Definition ex_sched : list (nat * act N N) := possible (init N N)
  (map starts [0; 1; 2; 3] ++ [calls 0 (OWrite Fresh (1, 10)%N); calls 1 (OWrite Fresh (17, 20)%N)] ++
   goes 1 0 ++ goes 2 1 ++ goes 2 0 ++ goes 1 1 ++ goes 12 0 ++ goes 3 1 ++
   [calls 2 (OGet 17%N); calls 3 OScan; calls 1 (ODel 17%N)] ++ goes 2 2 ++ goes 3 3 ++ goes 5 1 ++ [calls 0 (OWrite Any (1, 11)%N)] ++ goes 60 0 ++ goes 120 1 ++ goes 60 3 ++ goes 4 2).
Definition ex_events : list (event N N) :=
  [EInv 0 (OWrite Fresh (1, 10)%N); EInv 1 (OWrite Fresh (17, 20)%N); ERet 0 (RElem None); ERet 1 (RElem None);
   EInv 2 (OGet 17%N); EInv 3 OScan; EInv 1 (ODel 17%N); EInv 0 (OWrite Any (1, 11)%N); ERet 0 (RElem (Some (1, 10)%N));
   ERet 1 (RElem (Some (17, 20)%N)); ERet 3 (RList [(1, 11)%N]); ERet 2 (RElem None)].
Example ex_run : exists s, nrun ex_sched = Next s ex_events /\ (forall t, t < 4 -> pcs s t = Idle) /\ len s = 1%N.
Proof.
  eexists. split; [vm_compute; reflexivity|]. split; [|reflexivity]. intros t L. do 4 (destruct t as [|t]; [reflexivity|]). exfalso. lia.
Qed.
Lemma neqb_ok : decides N.eqb.
Proof. intros a b. apply N.eqb_eq. Qed.
(** C65 *)
Example ex_linearizable : exists A, asteps N.eqb (ainit N N) ex_events A.
Proof. destruct ex_run as (s & E & _). destruct (C65_linearizable N N N.eqb hash_id _ _ _ neqb_ok E) as (A & H & _). exists A. exact H. Qed.
(** C66: the scan ran across a removal and an update *)
Example ex_scan : exists ms, (forall x, In x [(1, 11)%N] -> exists m : amap N N, In m ms /\ m (fst x) = Some x).
Proof.
  destruct ex_run as (s & E & _).
  destruct (C66_scan N N N.eqb hash_id _ s (firstn 5 ex_events) [EInv 1 (ODel 17%N); EInv 0 (OWrite Any (1, 11)%N); ERet 0 (RElem (Some (1, 10)%N)); ERet 1 (RElem (Some (17, 20)%N))] [ERet 2 (RElem None)] 3 [(1, 11)%N] neqb_ok E) as (A0 & ms & A1 & A2 & _ & _ & _ & _ & Q & _).
  - intros x Hx. cbn in Hx. repeat (destruct Hx as [<-|Hx]; [cbn; discriminate|]). destruct Hx.
  - exists ms. exact Q.
Qed.
(** C67: five blocks were allocated, four of them (leaves that were replaced, branches that were compressed) are with the collector *)
Example ex_memory : exists s e, nrun ex_sched = Next s e /\ next (hp s) = 5 /\ map (fun a => is_some (rtd (hp s) a)) (seq 0 5) = [true; true; true; true; false].
Proof. eexists. eexists. split; [vm_compute; reflexivity|]. split; [vm_compute; reflexivity|vm_compute; reflexivity]. Qed.
(** C69: the bound is met: all keys have one hash, so the leaf is behind 16 branches; after 17 steps among those of a
    writer the lookup has not returned *)
Definition hash_0 (_ : N) : N := 0%N.
Definition ex_deep := map starts [0; 1] ++ calls 0 (OWrite Fresh (1, 10)%N) :: goes 4 0 ++ calls 0 (OWrite Fresh (2, 20)%N) :: goes 52 0.
Definition ex_look := concat (repeat (goes 1 1 ++ goes 1 0) 3) ++ goes 14 1.
Example ex_lookup : exists s e s', run N N N.eqb hash_0 (init N N) ex_deep = Next s e /\ run N N N.eqb hash_0 (init N N) (ex_deep ++ calls 1 (OGet 1%N) :: calls 0 (ODel 2%N) :: ex_look) = Next s' (e ++ EInv 1 (OGet 1%N) :: [EInv 0 (ODel 2%N)]) /\
  runs N N 1 (calls 0 (ODel 2%N) :: ex_look) = 17.
Proof. eexists. eexists. eexists. split; [vm_compute; reflexivity|]. split; vm_compute; reflexivity. Qed.

Print Assumptions C65_no_undefined.
Print Assumptions C65_linearizable.
Print Assumptions C65_never_blocked.
Print Assumptions C66_scan.
Print Assumptions C67_memory.
Print Assumptions C67_collectable.
Print Assumptions C68_size_partial.
Print Assumptions C68_quiet_size.
Print Assumptions C68_len_refuted.
Print Assumptions C69_wait_free.
