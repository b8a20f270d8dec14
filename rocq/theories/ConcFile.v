(** C117: every step keeps what the file, the queue and the statements under way tell together. *)
From Coq Require Import List NArith Bool Arith Lia Sorting.Sorted Permutation.
From Verif Require Import DataModel RowModel ConcModel ConcSpec ConcProofs ConcScan ConcDisk.
Import ListNotations.
Local Open Scope nat_scope.

Section File.
Variables V F : Type.
Variable app : F -> V -> V * bool.
Variable ord : list nat -> list nat.
(** an UPDATE of which a refusal leaves the row *)
Definition leaves (f : F) : Prop := forall v y, app f v = (y, false) -> y = v.
Definition fine (s : cstmt V F) : Prop := match s with CUpd _ f => leaves f | _ => True end.
Notation cst := (cst V F).
Notation ctask := (ctask V F).
Notation obj := (obj V).
Notation dinv := (dinv V F).

Definition hist (c : cst) : list (cev V) := concat (c_file c) ++ c_open c ++ flat_map (ev_of (c_objs c)) (c_queue c).
Definition qinv (objs : list obj) (q : list cdelta) : Prop :=
  forall d, In d q -> exists b, nth_error objs (cd_obj d) = Some b /\ (cd_kind d <> DkDelete -> (cd_ver d <= ob_rev b)%N).
Definition cinv (c : cst) : Prop := dinv (c_objs c) (c_idx c) (c_ver c) (hist c) (c_tasks c) /\ qinv (c_objs c) (c_queue c) /\ forall i t, nth_error (c_tasks c) i = Some t -> fine (ct_st t).

Lemma ev_same objs objs' d b : same_rows V objs objs' -> nth_error objs (cd_obj d) = Some b -> ev_of objs' d = ev_of objs d.
Proof. intros SR E. destruct (SR _ b E) as (y & Y & Q1 & Q2 & Q3). unfold ev_of. rewrite E, Y, Q1, Q2, Q3. reflexivity. Qed.
Lemma evs_same objs objs' q : same_rows V objs objs' -> qinv objs q -> flat_map (ev_of objs') q = flat_map (ev_of objs) q.
Proof.
  intros SR. induction q as [|d q IH]; intros Q; [reflexivity|]. cbn. destruct (Q d (or_introl eq_refl)) as (b & E & _). rewrite (ev_same _ _ _ _ SR E). f_equal. apply IH. intros x I. apply Q. right. exact I.
Qed.
Lemma qinv_same objs objs' q : same_rows V objs objs' -> qinv objs q -> qinv objs' q.
Proof. intros SR Q d I. destruct (Q d I) as (b & E & L). destruct (SR _ b E) as (y & Y & _ & _ & R). exists y. split; [exact Y|]. rewrite R. exact L. Qed.

Inductive sub {A} : list A -> list A -> Prop := sub_nil : sub [] [] | sub_skip x a b : sub a b -> sub a (x :: b) | sub_keep x a b : sub a b -> sub (x :: a) (x :: b).
Lemma sub_refl {A} (l : list A) : sub l l.
Proof. induction l; [constructor|apply sub_keep; assumption]. Qed.
Lemma sub_app {A} (a a' b b' : list A) : sub a a' -> sub b b' -> sub (a ++ b) (a' ++ b').
Proof. induction 1; intros B; cbn; [exact B|apply sub_skip; auto|apply sub_keep; auto]. Qed.
Lemma sub_nil_l {A} (l : list A) : sub [] l.
Proof. induction l; constructor; assumption. Qed.
Lemma sub_in {A} (a b : list A) : sub a b -> forall x, In x a -> In x b.
Proof. induction 1; intros y I; [inversion I|right; auto|destruct I as [->|I]; [left; reflexivity|right; auto]]. Qed.
Lemma sub_map_filter {A B} (f : A -> B) p (a b : list A) : sub a b -> sub (map f (filter p a)) (map f (filter p b)).
Proof. induction 1; cbn; [constructor|destruct (p x); cbn; [apply sub_skip|]; assumption|destruct (p x); cbn; [apply sub_keep|]; assumption]. Qed.
Lemma sub_sorted (a b : list N) : sub a b -> StronglySorted N.lt b -> StronglySorted N.lt a.
Proof.
  induction 1 as [|x a b S1 IH|x a b S1 IH]; intros S2; [constructor|inversion_clear S2; auto|]. inversion_clear S2 as [|? ? S3 A]. constructor; [auto|]. rewrite Forall_forall in *. intros y I. apply A. eapply sub_in; eassumption.
Qed.
Lemma evs_update objs o b b' q : qinv objs q -> nth_error objs o = Some b -> ob_key b' = ob_key b -> (ob_rev b < ob_rev b')%N ->
  sub (flat_map (ev_of (rep objs o b')) q) (flat_map (ev_of objs) q) /\ forall j, j <> ob_key b -> at_key V j (flat_map (ev_of (rep objs o b')) q) = at_key V j (flat_map (ev_of objs) q).
Proof.
  intros Q NO KE RE. induction q as [|d q IH]; [split; [constructor|reflexivity]|]. cbn [flat_map]. destruct IH as [I1 I2]; [intros x I; apply Q; right; exact I|].
  assert (ONE : sub (ev_of (rep objs o b') d) (ev_of objs d) /\ forall j, j <> ob_key b -> at_key V j (ev_of (rep objs o b') d) = at_key V j (ev_of objs d)).
  { destruct (Q d (or_introl eq_refl)) as (x & E & L). unfold ev_of. destruct (Nat.eq_dec (cd_obj d) o) as [D|D].
    - rewrite D in *. rewrite NO in E. injection E as <-. rewrite NO, (rep_same _ _ _ _ b' NO), KE.
      destruct (cd_kind d); [split; [apply sub_refl|reflexivity]| |];
      (replace (N.ltb (cd_ver d) (ob_rev b')) with true by (symmetry; apply N.ltb_lt; assert (cd_ver d <= ob_rev b)%N by (apply L; intros X; discriminate X); lia); split; [apply sub_nil_l|];
       intros j J; destruct (N.ltb (cd_ver d) (ob_rev b)); [reflexivity|]; rewrite at_key_one; cbn; rewrite neqb_key by congruence; reflexivity).
    - rewrite (rep_other _ _ _ _ _ b' NO D). split; [apply sub_refl|reflexivity]. }
  destruct ONE as [O1 O2]. split; [apply sub_app; assumption|]. intros j J. rewrite !at_key_app, O2, I2 by exact J. reflexivity.
Qed.

Lemma no_busy_del c i t k : calm c -> nth_error (c_tasks c) i = Some t -> (exists x, ct_st t = CIns k x) \/ (exists f, ct_st t = CUpd k f) -> busy t -> ~ busy_del V F (c_tasks c) i k.
Proof. intros CA N ST BU (j & x & _ & X & SX & B1 & B2). eapply (CA j i x t k); try eassumption. split; assumption. Qed.
Lemma no_busy_put c i t k : calm c -> nth_error (c_tasks c) i = Some t -> ct_st t = CDel k -> busy t -> ~ busy_put V F (c_tasks c) i k.
Proof. intros CA N ST BU (j & x & _ & X & SX & B1 & B2). eapply (CA i j t x k); try eassumption. split; assumption. Qed.
Lemma busy_pc (t : ctask) pc : ct_pc t = pc -> pc <> PNew -> (forall a m, pc <> PDone a m) -> busy t.
Proof. intros <- A B. split; assumption. Qed.

Lemma cinv_step_task c i t c' : cinv c -> calm c -> nth_error (c_tasks c) i = Some t -> step_task app ord c i t = Some c' ->
  dinv (c_objs c') (c_idx c') (c_ver c') (hist c') (c_tasks c') /\ qinv (c_objs c') (c_queue c').
Proof.
  intros [DI [QI FI0]] CA N ST. pose proof (d_fit _ _ _ _ _ _ _ DI i t N) as FT. pose proof (d_task _ _ _ _ _ _ _ DI i t N) as TK. unfold step_task in ST.
  assert (QUIET : forall objs' ver' pc, c' = mk_cst objs' (c_idx c) ver' (c_queue c) (c_open c) (c_file c) (rep (c_tasks c) i (mk_ct (ct_st t) (ct_inv t) pc)) (S (c_now c)) ->
    fits V F (mk_ct (ct_st t) (ct_inv t) pc) -> same_rows V (c_objs c) objs' -> length (c_objs c) = length objs' -> (c_ver c <= ver')%N ->
    tok V F objs' (c_idx c) ver' (hist c) (mk_ct (ct_st t) (ct_inv t) pc) -> (forall o r, pc <> PInsQ o r /\ pc <> PUpdQ o r /\ pc <> PDelQ o r) -> (forall o r, ct_pc t <> PDelQ o r) ->
    (forall o r b, puts V F t o r -> nth_error (c_objs c) o = Some b -> r <> ob_rev b) ->
    (forall o b, nth_error (c_objs c) o = Some b -> ob_lock b = true -> (exists b', nth_error objs' o = Some b' /\ ob_lock b' = true) \/ locks V F t = Some o) ->
    (forall o, locks V F (mk_ct (ct_st t) (ct_inv t) pc) = Some o -> (exists b, nth_error objs' o = Some b /\ ob_lock b = true) /\ (locks V F t = Some o \/ exists b, nth_error (c_objs c) o = Some b /\ ob_lock b = false)) -> dinv (c_objs c') (c_idx c') (c_ver c') (hist c') (c_tasks c') /\ qinv (c_objs c') (c_queue c')).
  { intros objs' ver' pc -> FI SR LE VE TO NP ND NR L1 L2. split; cbn; [|eapply qinv_same; eassumption]. unfold hist. cbn. rewrite (evs_same _ _ _ SR QI). eapply (dinv_quiet V F (c_objs c) (c_idx c) (c_ver c) (hist c) (c_tasks c)); try eassumption.
    - intros o r [P|P]; cbn in P; destruct (NP o r) as (A & B & _); congruence.
    - intros k (_ & o & v & P). cbn in P. destruct (NP o v) as (_ & _ & A). congruence.
    - intros k (_ & o & v & P). eapply ND; exact P. }
  assert (CALM0 : forall ver' pc, c' = mk_cst (c_objs c) (c_idx c) ver' (c_queue c) (c_open c) (c_file c) (rep (c_tasks c) i (mk_ct (ct_st t) (ct_inv t) pc)) (S (c_now c)) ->
    fits V F (mk_ct (ct_st t) (ct_inv t) pc) -> (c_ver c <= ver')%N -> tok V F (c_objs c) (c_idx c) ver' (hist c) (mk_ct (ct_st t) (ct_inv t) pc) ->
    (forall o r, pc <> PInsQ o r /\ pc <> PUpdQ o r /\ pc <> PDelQ o r) -> (forall o r, ct_pc t <> PInsQ o r /\ ct_pc t <> PUpdQ o r /\ ct_pc t <> PDelQ o r) ->
    (forall o, locks V F (mk_ct (ct_st t) (ct_inv t) pc) = Some o -> locks V F t = Some o) -> dinv (c_objs c') (c_idx c') (c_ver c') (hist c') (c_tasks c') /\ qinv (c_objs c') (c_queue c')).
  { intros ver' pc E FI VE TO NP NT L2. eapply (QUIET (c_objs c) ver' pc); try eassumption; [apply same_rows_refl|reflexivity| | | |].
    - intros o r. apply NT.
    - intros o r b [P|P] _; destruct (NT o r) as (A & B & _); congruence.
    - intros o b X Y. left. eauto.
    - intros o X. specialize (L2 o X). split; [eapply (d_lk _ _ _ _ _ _ _ DI i t o N L2)|left; exact L2]. }
  destruct (ct_st t) as [k x|k f|k|k|] eqn:SE; destruct (ct_pc t) eqn:PE; unfold fits in FT; rewrite SE, PE in FT; try contradiction; try discriminate ST; unfold tok in TK; rewrite ?SE in TK; rewrite ?PE in TK.
  - (* INSERT takes a number *) destruct (scanning c); [discriminate ST|]. injection ST as <-. eapply CALM0; [unfold go, numbered; cbn; rewrite SE; reflexivity|..]; rewrite ?PE; cbn; auto; try lia; try (intros; repeat split; discriminate).
    + unfold tok. cbn. split; [lia|]. intros _. apply below_all. apply (d_low _ _ _ _ _ _ _ DI).
  - (* INSERT puts the row *) destruct (c_idx c k) as [o|] eqn:IK; injection ST as <-.
    + eapply CALM0; [unfold go; cbn; rewrite SE; reflexivity|..]; rewrite ?PE; cbn; auto; try lia; try (intros; repeat split; discriminate).
    + split; cbn.
      * unfold hist. cbn. rewrite (evs_same (c_objs c)); [|intros o b E; exists b; split; [rewrite nth_error_app1; [exact E|apply nth_error_Some; congruence]|auto]|exact QI].
        eapply (dinv_insert V F _ _ _ _ _ _ _ _ DI N); [rewrite SE; exact Logic.I|exact SE|exact PE|exact IK|reflexivity|]. eapply no_busy_del; [exact CA|exact N|left; eauto|]. eapply busy_pc; [exact PE| |]; intros; discriminate.
      * eapply qinv_same; [|exact QI]. intros o b E; exists b; split; [rewrite nth_error_app1; [exact E|apply nth_error_Some; congruence]|auto].
  - (* INSERT queues the change *) injection ST as <-. destruct TK as (IK & b & NO & RB & BL). destruct (d_key _ _ _ _ _ _ _ DI k o IK) as (b0 & E0 & KB). rewrite NO in E0. injection E0 as <-.
    assert (QN : qinv (c_objs c) (c_queue c ++ [mk_cd DkInsert v o])). { intros d I. apply in_app_iff in I. destruct I as [I|[<-|[]]]; [apply QI, I|]. exists b. split; [exact NO|]. intros _. exact RB. }
    split; cbn; [|exact QN]. unfold hist. cbn. rewrite flat_map_app. cbn. rewrite app_nil_r. unfold ev_of at 2. cbn. rewrite NO. destruct (N.ltb v (ob_rev b)) eqn:LT.
    + rewrite app_nil_r. apply N.ltb_lt in LT. eapply (dinv_quiet V F (c_objs c) (c_idx c) (c_ver c) (hist c) (c_tasks c)); try eassumption; rewrite ?SE; cbn; auto; try lia; try apply same_rows_refl.
      * intros o' r [P|P]; discriminate P.
      * intros k' (_ & o' & v' & P). discriminate P.
      * intros k' (P & _). congruence.
      * intros o' r b' [P|P] E; [|congruence]. rewrite PE in P. injection P as <- <-. rewrite NO in E. injection E as <-. lia.
      * intros o' b' E L. left. eauto.
      * intros o' X. discriminate X.
    + apply N.ltb_ge in LT. assert (v = ob_rev b) as EV by lia. rewrite !app_assoc, <- (app_assoc (concat (c_file c))).
      eapply (dinv_tell V F _ _ _ _ _ _ _ _ DI N) with (o := o) (b := b) (k := k); try eassumption; cbn; auto; try (rewrite SE; exact Logic.I); try apply same_rows_refl; try congruence; try (left; congruence).
      * rewrite <- EV. apply BL. exact EV.
      * eauto.
      * eapply no_busy_del; [exact CA|exact N|left; eauto|]. eapply busy_pc; [exact PE| |]; intros; discriminate.
      * intros o' b' E L. left. eauto.
  - (* UPDATE fetches *) destruct (c_idx c k) as [o|] eqn:IK; injection ST as <-; (eapply CALM0; [unfold go; cbn; rewrite SE; reflexivity|..]; rewrite ?PE; cbn; auto; try lia; try (intros; repeat split; discriminate)); intros o' X; discriminate X.
  - (* UPDATE locks *) destruct (nth_error (c_objs c) o) as [b|] eqn:NO; [|discriminate ST]. destruct (ob_lock b) eqn:LB; [discriminate ST|]. injection ST as <-.
    eapply (QUIET (rep (c_objs c) o (relock true b)) (c_ver c)); [unfold go, with_objs; cbn; rewrite SE; reflexivity|..]; rewrite ?PE; cbn; auto; try lia; try (intros; repeat split; discriminate).
    + eapply same_rows_rep; [exact NO|..]; reflexivity.
    + symmetry. apply rep_length. apply nth_error_Some. congruence.
    + intros o' r b' [P|P]; congruence.
    + intros o' b' E L. left. destruct (Nat.eq_dec o' o) as [->|O]; [congruence|]. exists b'. rewrite (rep_other _ _ _ _ _ _ NO O). auto.
    + intros o' X. injection X as <-. split; [|right; eauto]. exists (relock true b). split; [eapply rep_same; exact NO|reflexivity].
  - (* UPDATE takes a number *) injection ST as <-. destruct (d_lk _ _ _ _ _ _ _ DI i t o N) as (b & NO & LB); [unfold locks; rewrite PE; reflexivity|].
    eapply CALM0; [unfold go, numbered; cbn; rewrite SE; reflexivity|..]; rewrite ?PE; cbn; auto; try lia; try (intros; repeat split; discriminate).
    + unfold tok. cbn. split; [lia|]. split; [exact TK|]. split; [apply below_all; apply (d_low _ _ _ _ _ _ _ DI)|]. exists b. split; [exact NO|]. apply (d_rev _ _ _ _ _ _ _ DI o b NO).
    + unfold locks. cbn. rewrite PE. auto.
  - (* UPDATE changes the row *) destruct TK as (V1 & IK & BL & b & NO & RB). rewrite NO in ST. destruct (d_key _ _ _ _ _ _ _ DI k o IK) as (b0 & E0 & KB). rewrite NO in E0. injection E0 as <-.
    destruct (app f (ob_val b)) as [y ok] eqn:AP. destruct ok.
    + injection ST as <-. set (b' := mk_obj (ob_key b) y v (ob_lock b) (ob_gone b)). destruct (evs_update (c_objs c) o b b' (c_queue c) QI NO eq_refl RB) as [S1 S2]. split; cbn.
      * unfold hist. cbn. eapply (dinv_update V F _ _ _ _ _ _ _ _ DI N) with (o := o) (b := b) (k := k); try eassumption; try reflexivity; [rewrite SE; exact Logic.I|..].
        -- eapply no_busy_del; [exact CA|exact N|right; eauto|]. eapply busy_pc; [exact PE| |]; intros; discriminate.
        -- intros j J. unfold hist. rewrite !at_key_app, S2 by congruence. reflexivity.
        -- eapply sub_sorted; [|apply (d_sort _ _ _ _ _ _ _ DI k)]. unfold vers, at_key. apply sub_map_filter. unfold hist. apply sub_app; [apply sub_refl|]. apply sub_app; [apply sub_refl|exact S1].
        -- intros e I. unfold hist. rewrite !in_app_iff in *. destruct I as [I|[I|I]]; auto. right. right. eapply sub_in; eassumption.
      * intros d I. destruct (QI d I) as (z & Z & L). destruct (Nat.eq_dec (cd_obj d) o) as [D|D].
        -- rewrite D in *. rewrite NO in Z. injection Z as <-. exists b'. split; [eapply rep_same; exact NO|]. intros X. specialize (L X). cbn. lia.
        -- exists z. rewrite (rep_other _ _ _ _ _ _ NO D). auto.
    + pose proof (FI0 i t N) as KP. rewrite SE in KP. pose proof (KP _ _ AP) as ->. injection ST as <-.
      eapply (QUIET (rep (c_objs c) o (mk_obj (ob_key b) (ob_val b) (ob_rev b) false (ob_gone b))) (c_ver c)); [unfold go, with_objs; cbn; rewrite SE; reflexivity|..]; rewrite ?PE; cbn; auto; try lia; try (intros; repeat split; discriminate).
      * eapply same_rows_rep; [exact NO|..]; reflexivity.
      * symmetry. apply rep_length. apply nth_error_Some. congruence.
      * intros o' r b' [P|P]; congruence.
      * intros o' b' E L. destruct (Nat.eq_dec o' o) as [->|O]; [right; unfold locks; rewrite PE; reflexivity|]. left. exists b'. rewrite (rep_other _ _ _ _ _ _ NO O). auto.
  - (* UPDATE queues the change *) destruct TK as (IK & BL & b & NO & RB). rewrite NO in ST. injection ST as <-. destruct (d_key _ _ _ _ _ _ _ DI k o IK) as (b0 & E0 & KB). rewrite NO in E0. injection E0 as <-.
    assert (SR : same_rows V (c_objs c) (rep (c_objs c) o (relock false b))) by (eapply same_rows_rep; [exact NO|..]; reflexivity).
    split; cbn.
    2: { intros d I. apply in_app_iff in I. destruct I as [I|[<-|[]]]; [eapply (qinv_same _ _ _ SR QI); exact I|]. eexists. split; [eapply rep_same; exact NO|]. cbn. intros _. lia. }
    unfold hist. cbn. rewrite flat_map_app. cbn. rewrite app_nil_r, (evs_same _ _ _ SR QI). unfold ev_of at 2. cbn. rewrite (rep_same _ _ _ _ _ NO). cbn. rewrite RB, N.ltb_irrefl. rewrite !app_assoc, <- (app_assoc (concat (c_file c))).
    eapply (dinv_tell V F _ _ _ _ _ _ _ _ DI N) with (o := o) (b := b) (k := k); try eassumption; cbn; auto; try (rewrite SE; exact Logic.I); try congruence; try (right; congruence).
    + symmetry. apply rep_length. apply nth_error_Some. congruence.
    + eauto.
    + eapply no_busy_del; [exact CA|exact N|right; eauto|]. eapply busy_pc; [exact PE| |]; intros; discriminate.
    + intros o' b' E L. destruct (Nat.eq_dec o' o) as [->|O]; [right; unfold locks; rewrite PE; reflexivity|]. left. exists b'. rewrite (rep_other _ _ _ _ _ _ NO O). auto.
  - (* DELETE takes a number *) destruct (scanning c); [discriminate ST|]. injection ST as <-. eapply CALM0; [unfold go, numbered; cbn; rewrite SE; reflexivity|..]; rewrite ?PE; cbn; auto; try lia; try (intros; repeat split; discriminate).
    + unfold tok. cbn. split; [lia|]. intros _. apply below_all. apply (d_low _ _ _ _ _ _ _ DI).
  - (* DELETE takes the row out *) destruct (c_idx c k) as [o|] eqn:IK.
    + destruct (nth_error (c_objs c) o) as [b|] eqn:NO; [|discriminate ST]. injection ST as <-.
      assert (SR : same_rows V (c_objs c) (rep (c_objs c) o (mk_obj (ob_key b) (ob_val b) (ob_rev b) (ob_lock b) (Some i)))) by (eapply same_rows_rep; [exact NO|..]; reflexivity).
      split; cbn; [|eapply qinv_same; eassumption]. unfold hist. cbn. rewrite (evs_same _ _ _ SR QI).
      eapply (dinv_delete V F _ _ _ _ _ _ _ _ DI N) with (v := v) (b := b); try eassumption; try reflexivity; [rewrite SE; exact Logic.I|]. eapply no_busy_put; [exact CA|exact N|exact SE|]. eapply busy_pc; [exact PE| |]; intros; discriminate.
    + injection ST as <-. eapply CALM0; [unfold go; cbn; rewrite SE; reflexivity|..]; rewrite ?PE; cbn; auto; try lia; try (intros; repeat split; discriminate).
  - (* DELETE queues the change *) injection ST as <-. destruct TK as (V1 & IK & BL & b & NO & KB). split; cbn.
    2: { intros d I. apply in_app_iff in I. destruct I as [I|[<-|[]]]; [apply QI, I|]. exists b. split; [exact NO|]. cbn. intros X. congruence. }
    unfold hist. cbn. rewrite flat_map_app. cbn. rewrite app_nil_r. unfold ev_of at 2. cbn. rewrite NO. rewrite !app_assoc, <- (app_assoc (concat (c_file c))).
    eapply (dinv_tell_del V F _ _ _ _ _ _ _ _ DI N) with (o := o) (v := v) (k := k); try eassumption; try (rewrite SE; exact Logic.I); [rewrite KB; reflexivity|eauto|]. eapply no_busy_put; [exact CA|exact N|exact SE|]. eapply busy_pc; [exact PE| |]; intros; discriminate.
  - (* SELECT *) destruct (c_idx c k) as [o|] eqn:IK; injection ST as <-; (eapply CALM0; [unfold go; cbn; rewrite SE; reflexivity|..]; rewrite ?PE; cbn; auto; try lia; try (intros; repeat split; discriminate)); intros o' X; discriminate X.
  - destruct (nth_error (c_objs c) o) as [b|]; [|discriminate ST]. destruct (ob_lock b); [discriminate ST|]. injection ST as <-. eapply CALM0; [unfold go; cbn; rewrite SE; reflexivity|..]; rewrite ?PE; cbn; auto; try lia; try (intros; repeat split; discriminate).
  - (* SELECT ALL *) destruct (latched c); [discriminate ST|]. injection ST as <-. eapply CALM0; [unfold go; cbn; rewrite SE; reflexivity|..]; rewrite ?PE; cbn; auto; try lia; try (intros; repeat split; discriminate).
  - destruct rest as [|o rest]; [|destruct (nth_error (c_objs c) o) as [b|]; [|discriminate ST]; destruct (ob_lock b); [discriminate ST|]]; injection ST as <-;
      (eapply CALM0; [unfold go; cbn; rewrite SE; reflexivity|..]; rewrite ?PE; cbn; auto; try lia; try (intros; repeat split; discriminate)); intros o' X; discriminate X.
Qed.
Lemma fine_step c i t c' : (forall j x, nth_error (c_tasks c) j = Some x -> fine (ct_st x)) -> nth_error (c_tasks c) i = Some t -> step_task app ord c i t = Some c' ->
  forall j x, nth_error (c_tasks c') j = Some x -> fine (ct_st x).
Proof.
  intros A N ST j x X. destruct (step_shape _ _ _ _ _ _ _ _ ST) as (pc & TS & _). rewrite TS in X. apply (rep_at _ _ _ _ _ _ _ N) in X. destruct X as [[-> ->]|[_ X]]; [apply (A i t N)|apply (A j x X)].
Qed.

Lemma cinv_cstep c l c' : cinv c -> calm c -> (forall s, l = LStart s -> fine s) -> cstep app ord c l = Some c' -> cinv c'.
Proof.
  intros CI CA FL ST. destruct l as [s|i| |]; cbn in ST.
  - injection ST as <-. destruct CI as [DI [QI FI0]]. split; cbn; [|split; [exact QI|intros i t E; apply nth_snoc in E; destruct E as [E|[_ ->]]; [apply (FI0 i t E)|cbn; apply FL; reflexivity]]]. unfold hist. cbn. pose proof DI as [D1 D2 D3 D4 D5 D6 D7 D8 D9 D10 D11 D12]. constructor; auto.
    + intros k. specialize (D6 k). unfold memok in *. assert (AP : forall P : ctask -> Prop, (exists i t, nth_error (c_tasks c) i = Some t /\ P t) -> exists i t, nth_error (c_tasks c ++ [mk_ct s (c_now c) PNew]) i = Some t /\ P t).
      { intros P (i & t & E & H). exists i, t. split; [rewrite nth_error_app1; [exact E|apply nth_error_Some; congruence]|exact H]. }
      destruct (c_idx c k) as [o|]; [intros b E; destruct (D6 b E) as [X|X]; [left; apply (AP (fun t => puts V F t o (ob_rev b))), X|right; exact X]|destruct D6 as [X|X]; [left; apply (AP (fun t => dels V F t k)), X|right; exact X]].
    + intros i t E. apply nth_snoc in E. destruct E as [E|[_ ->]]; [apply (D7 i t E)|]. unfold tok. cbn. now destruct s.
    + intros i j t u o r E E' P P'. apply nth_snoc in E. apply nth_snoc in E'. destruct E as [E|[_ ->]]; [|destruct P as [P|P]; discriminate P]. destruct E' as [E'|[_ ->]]; [|destruct P' as [P'|P']; discriminate P']. eapply (D8 i j); eassumption.
    + intros i j t u k E E' P P'. apply nth_snoc in E. apply nth_snoc in E'. destruct E as [E|[_ ->]]; [|destruct P as (_ & o & v & P); discriminate P]. destruct E' as [E'|[_ ->]]; [|destruct P' as (_ & o & v & P'); discriminate P']. eapply (D9 i j); eassumption.
    + intros i t o E L. apply nth_snoc in E. destruct E as [E|[_ ->]]; [eapply D10; eassumption|discriminate L].
    + intros i j t u o E E' P P'. apply nth_snoc in E. apply nth_snoc in E'. destruct E as [E|[_ ->]]; [|discriminate P]. destruct E' as [E'|[_ ->]]; [|discriminate P']. eapply (D11 i j); eassumption.
    + intros i t E. apply nth_snoc in E. destruct E as [E|[_ ->]]; [eapply D12; exact E|]. unfold fits. cbn. now destruct s.
  - destruct (nth_error (c_tasks c) i) as [t|] eqn:N; [|discriminate ST]. destruct (cinv_step_task _ _ _ _ CI CA N ST) as [A B]. split; [exact A|]. split; [exact B|]. eapply fine_step; [apply CI|exact N|exact ST].
  - destruct (c_queue c) as [|d q] eqn:Q; [discriminate ST|]. destruct (blocked (c_objs c) d); [discriminate ST|]. injection ST as <-. destruct CI as [DI [QI FI0]]. split; cbn; [|split; [|exact FI0]].
    + unfold hist in *. cbn. rewrite Q in DI. cbn in DI. rewrite <- app_assoc. exact DI.
    + intros x I. apply QI. rewrite Q. right. exact I.
  - injection ST as <-. destruct CI as [DI [QI FI0]]. split; cbn; [|split; [exact QI|exact FI0]]. unfold hist in *. cbn. rewrite concat_app. cbn. rewrite app_nil_r, <- app_assoc. exact DI.
Qed.
Lemma cinv0 : cinv cst0.
Proof.
  split; [|split; [intros d []|intros [|i] t E; discriminate E]]. unfold hist. cbn. constructor; cbn; try (intros; contradiction); try (intros; discriminate); try (intros [|?]; intros; discriminate).
  - intros k. constructor.
  - intros k. right. reflexivity.
Qed.
Lemma cinv_run ls : forall c, crun app ord cst0 ls = Some c -> (forall n c', moment app ord ls n c' -> calm c') -> (forall s, In (LStart s) ls -> fine s) -> cinv c.
Proof.
  induction ls as [|l ls IH] using rev_ind; intros c R CA FL; [cbn in R; injection R as <-; apply cinv0|].
  rewrite crun_app in R. destruct (crun app ord cst0 ls) as [c0|] eqn:E; [|discriminate R]. cbn in R. destruct (cstep app ord c0 l) as [c1|] eqn:E1; [|discriminate R]. injection R as <-.
  eapply cinv_cstep; [apply IH; [reflexivity| |]| | |exact E1].
  - intros n c' M. eapply CA. apply moment_more. exact M.
  - intros s I. apply FL, in_app_iff. left. exact I.
  - eapply (CA (c_now c0)). apply moment_here. exact E.
  - intros s ->. apply FL, in_app_iff. right. left. reflexivity.
Qed.
Lemma settled_file ls c : crun app ord cst0 ls = Some c -> (forall n c', moment app ord ls n c' -> calm c') -> (forall s, In (LStart s) ls -> fine s) -> settled c ->
  exists t, l_start (c_file c) = Some t /\ forall k, option_map fst (t k) = mem c k.
Proof.
  intros R CA FL (DO & QE & OE). destruct (cinv_run _ _ R CA FL) as [DI _]. unfold hist in DI. rewrite QE, OE in DI. cbn in DI. rewrite app_nil_r in DI. pose proof DI as [D1 D2 D3 D4 D5 D6 D7 D8 D9 D10 D11 D12].
  destruct (start_told V (c_file c) D4 D1) as (t & E & P). exists t. split; [exact E|]. intros k. rewrite P. specialize (D6 k). unfold memok in D6. unfold mem. destruct (c_idx c k) as [o|] eqn:IK.
  - destruct (D5 k o IK) as (b & NO & _). rewrite NO. destruct (D6 b NO) as [(i & u & U & PU)|T]; [|rewrite T; reflexivity]. exfalso. destruct (DO i u U) as (a & m & X). destruct PU as [PU|PU]; congruence.
  - destruct D6 as [(i & u & U & PU)|T]; [|rewrite T; reflexivity]. exfalso. destruct (DO i u U) as (a & m & X). destruct PU as (_ & o & v & PU). congruence.
Qed.
End File.
