(** The row index under every schedule: every step is a step of the map. *)
From Coq Require Import List Arith NArith Bool Lia.
From Verif Require Import MtModel MtSpec MtProofs ChtModel ChtSpec ChtHeap ChtMap ChtRel.
Import ListNotations.
Local Open Scope nat_scope.

Arguments BNone {K V}. Arguments BLeaf {K V}. Arguments BBr {K V}.
Arguments MkHeap {K V}. Arguments root {K V}. Arguments mem {K V}. Arguments next {K V}. Arguments rtd {K V}.
Arguments MkSt {K V}. Arguments hp {K V}. Arguments time {K V}. Arguments pinned {K V}. Arguments pin {K V}. Arguments len {K V}. Arguments pcs {K V}.
Arguments Idle {K V}. Arguments WLoad {K V}. Arguments WCas {K V}. Arguments GLoad {K V}. Arguments RLoad {K V}. Arguments RCas {K V}. Arguments RCount {K V}.
Arguments Freeze {K V}. Arguments CCas {K V}. Arguments Incr {K V}. Arguments Decr {K V}. Arguments SInit {K V}. Arguments SRun {K V}. Arguments LLoad {K V}. Arguments Ret {K V}.
Arguments NLeaf {K V}. Arguments NSplit {K V}. Arguments KWrite {K V}. Arguments KDel {K V}. Arguments KLoop {K V}.
Arguments ChtModel.OWrite {K V}. Arguments ChtModel.ODel {K V}. Arguments ChtModel.OGet {K V}. Arguments ChtModel.OScan {K V}. Arguments ChtModel.OLen {K V}.
Arguments ChtModel.RElem {K V}. Arguments ChtModel.RList {K V}. Arguments ChtModel.RLen {K V}.
Arguments PRet {K V}. Arguments PCas {K V}. Arguments PPanic {K V}.
Arguments EInv {K V}. Arguments ERet {K V}. Arguments Dis {K V}. Arguments Bad {K V}. Arguments Next {K V}.
Arguments MkA {K V}. Arguments am {K V}. Arguments ath {K V}. Arguments AIdle {K V}. Arguments APending {K V}. Arguments AScan {K V}. Arguments AReady {K V}.
Arguments watch {K V}. Arguments asteps {K V}. Arguments alive {K V}. Arguments leafdata {K V}. Arguments weight {K V}.

Section Sim.
Variables K V : Type.
Variable keq : K -> K -> bool.
Hypothesis keq_ok : forall a b, keq a b = true <-> a = b.
Variable hash : K -> N.
Notation elem := (K * V)%type.
Notation heap := (heap K V).
Notation chunk_at := (chunk_at K hash).
Notation sfind := (sfind K V keq).
Notation prefix := (prefix K hash).
Notation content := (content K V).
Notation linked := (linked K V).
Notation good := (good K V hash).
Notation valid := (valid K V hash).
Notation Inv := (Inv K V hash).
Notation abs := (abs K V keq hash).
Notation ext := (ext K V).
Notation pc := (pc K V).
Notation mstep := (mstep K V keq).
Notation athread := (athread K V).
Notation amap := (amap K V).

Notation TI := (TI K V keq hash).
Notation Rel := (Rel K V keq hash).
Notation stt := (stt K V keq hash).
Notation scanning := (scanning K V).
Notation okl := (okl K V hash).
Notation okp := (okp K V).
Notation okb := (okb K V).
Notation astep := (astep K V keq).
Notation asteps := (@ChtSpec.asteps K V keq).
Notation ast := (ast K V).
Notation st := (st K V).
Notation nul := (nul K V).
Notation fwl := (fwl K V keq hash).

Lemma asteps_app a b c e e' : asteps a e b -> asteps b e' c -> asteps a (e ++ e') c.
Proof. intros A B. induction A as [s|s e1 s1 e2 s2 H A IH]; [exact B|]. rewrite <- app_assoc. eapply as_step; [exact H|exact (IH B)]. Qed.
Lemma asteps_one a e b : astep a e b -> asteps a e b.
Proof. intros H. rewrite <- (app_nil_r e). eapply as_step; [exact H|apply as_refl]. Qed.
Lemma mstep_ext (M M' : amap) o m r : (forall k, M k = M' k) -> mstep M o = Some (m, r) -> exists m', mstep M' o = Some (m', r) /\ forall k, m k = m' k.
Proof.
  intros E. destruct o as [w e|k|k| |]; cbn [ChtSpec.mstep]; try discriminate.
  - assert (P : forall k, put K V keq e M k = put K V keq e M' k) by (intros k; unfold put; rewrite E; reflexivity).
    destruct w; intros Q; injection Q as <- <-; rewrite E; eexists; (split; [reflexivity|]); try exact P; destruct (M' (fst e)); assumption.
  - intros Q. injection Q as <- <-. rewrite E. eexists. split; [reflexivity|]. intros k0. unfold del. rewrite E. reflexivity.
  - intros Q. injection Q as <- <-. rewrite E. eexists. split; [reflexivity|exact E].
Qed.

(** the state of the threads and of the map *)
Record R (s : st) (A : ast) (pos : posn) : Prop := {
  r_inv : Inv (time s) (hp s) pos;
  r_pin : forall t, In t (pinned s) -> pin s t <= time s;
  r_idle : forall t, ~ In t (pinned s) -> pcs s t = Idle;
  r_ti : forall t, TI (hp s) pos (pin s t) (pcs s t);
  r_map : forall k, am A k = abs (hp s) k;
  r_rel : forall t, Rel (hp s) pos (pin s t) (time s) (am A) (pcs s t) (ath A t)
}.

(** ** After a write to memory, the threads that now have their answer *)
Section Catch.
Variables (T : nat) (h : heap) (pos : posn) (h' : heap) (pos' : posn) (pn : nat -> nat) (ps : nat -> pc).
Hypothesis I : Inv T h pos.
Hypothesis I' : Inv (S T) h' pos'.
Hypothesis X : ext T h pos h' pos'.
Hypothesis HT : forall t, TI h pos (pn t) (ps t).
Hypothesis HP : forall t, ps t <> Idle -> pn t <= T.

Lemma catch : forall L (A : ast), (forall k, am A k = abs h k) ->
  (forall u, Rel h pos (pn u) T (am A) (ps u) (ath A u) \/ Rel h' pos' (pn u) (S T) (am A) (ps u) (ath A u)) ->
  exists A', asteps A [] A' /\ (forall k, am A' k = abs h k) /\
  (forall u, In u L -> Rel h' pos' (pn u) (S T) (am A') (ps u) (ath A' u)) /\
  (forall u, ~ In u L -> Rel h pos (pn u) T (am A) (ps u) (ath A u) -> Rel h pos (pn u) T (am A') (ps u) (ath A' u)) /\
  (forall u, Rel h pos (pn u) T (am A') (ps u) (ath A' u) \/ Rel h' pos' (pn u) (S T) (am A') (ps u) (ath A' u)).
Proof.
  induction L as [|t L IH]; intros A EM HR.
  - exists A. split; [apply as_refl|]. split; [exact EM|]. split; [intros u []|]. split; auto.
  - destruct (IH A EM HR) as (A1 & S1 & EM1 & D1 & K1 & HR1).
    assert (C : Rel h' pos' (pn t) (S T) (am A1) (ps t) (ath A1 t) \/
      (scanning (ps t) = false /\ exists o m1 r, ath A1 t = APending o /\ mstep (am A1) o = Some (m1, r) /\ (forall k, m1 k = am A1 k) /\ stt h' pos' (ps t) = AReady (ChtModel.RElem r))).
    { destruct (HR1 t) as [Hr|Hr]; [|left; exact Hr]. destruct (match ps t with Idle => true | _ => false end) eqn:Q.
      - left. destruct (ps t); try discriminate Q. exact Hr.
      - apply (rel_after K V keq keq_ok hash T h pos h' pos' (pn t) I I' X); [apply HP; intros E; rewrite E in Q; discriminate Q|exact EM1|exact (HT t)|exact Hr]. }
    destruct C as [C|(Sc & o & m1 & r & Ea & Em & Eq & Es)].
    + exists A1. split; [exact S1|]. split; [exact EM1|]. split; [intros u [<-|Hu]; [exact C|exact (D1 u Hu)]|]. split; [|exact HR1]. intros u Nu. apply K1. intros Hu. apply Nu. right. exact Hu.
    + set (A2 := MkA m1 (fup (fun u => watch m1 (ath A1 u)) t (AReady (ChtModel.RElem r)))). exists A2. destruct A1 as (m0, th0). cbn [am ath] in *.
      assert (Rt : forall M, Rel h' pos' (pn t) (S T) M (ps t) (AReady (ChtModel.RElem r))) by (intros M; apply rel_plain; [exact Sc|symmetry; exact Es]).
      split; [change (@nil (event K V)) with (@nil (event K V) ++ []); apply (asteps_app _ _ _ _ _ S1); apply asteps_one; eapply a_eff; [exact Ea|exact Em]|].
      split; [intros k; cbn; rewrite Eq; apply EM1|]. split; [|split].
      * intros u Hu. destruct (Nat.eq_dec u t) as [->|N]; cbn; [rewrite fup_same; apply Rt|]. rewrite fup_other by exact N. destruct Hu as [E|Hu]; [congruence|]. apply (rel_watch K V keq hash _ _ _ _ _ _ _ _ (D1 u Hu)).
      * intros u Nu Hr. assert (N : u <> t) by (intros ->; apply Nu; left; reflexivity). cbn. rewrite fup_other by exact N. apply (rel_watch K V keq hash _ _ _ _ m0). apply K1; [|exact Hr]. intros Hu. apply Nu. right. exact Hu.
      * intros u. destruct (Nat.eq_dec u t) as [->|N]; cbn; [rewrite fup_same; right; apply Rt|]. rewrite fup_other by exact N. destruct (HR1 u) as [Hr|Hr]; [left|right]; apply (rel_watch K V keq hash _ _ _ _ _ _ _ _ Hr).
Qed.
End Catch.

Lemma not_idle s A pos t : R s A pos -> pcs s t <> Idle -> In t (pinned s).
Proof. intros H N. destruct (in_dec Nat.eq_dec t (pinned s)) as [Hi|Hi]; [exact Hi|]. exfalso. exact (N (r_idle _ _ _ H t Hi)). Qed.

(** ** One step of a thread *)
Section Step.
Variables (s : st) (A : ast) (pos : posn) (t : nat).
Hypothesis H : R s A pos.
Hypothesis Np : pcs s t <> Idle.
Notation p := (pcs s t).
Let Pt : In t (pinned s) := not_idle s A pos t H Np.
Let Lt : pin s t <= time s := r_pin _ _ _ H t Pt.

(** memory not written, the same call *)
Lemma sim_same p' n : TI (hp s) pos (pin s t) p' -> Rel (hp s) pos (pin s t) (S (time s)) (am A) p' (ath A t) -> p' <> Idle ->
  R (tick K V (set_len K V (set_pc K V s (hp s) t p') n)) A pos.
Proof.
  intros Ti Re Ni. constructor; cbn.
  - exact (inv_time K V hash _ _ _ _ (Nat.le_succ_diag_r _) (r_inv _ _ _ H)).
  - intros u Hu. pose proof (r_pin _ _ _ H u Hu). lia.
  - intros u Hu. rewrite fup_other; [exact (r_idle _ _ _ H u Hu)|]. intros ->. exact (Hu Pt).
  - intros u. destruct (Nat.eq_dec u t) as [->|N]; [rewrite fup_same; exact Ti|rewrite fup_other by exact N; exact (r_ti _ _ _ H u)].
  - exact (r_map _ _ _ H).
  - intros u. destruct (Nat.eq_dec u t) as [->|N]; [rewrite fup_same; exact Re|rewrite fup_other by exact N]. exact (rel_time K V keq hash _ _ _ _ _ _ _ _ (Nat.le_succ_diag_r _) (r_rel _ _ _ H u)).
Qed.
Lemma sim_same_plain p' : scanning p = false -> scanning p' = false -> TI (hp s) pos (pin s t) p' -> stt (hp s) pos p' = stt (hp s) pos p -> p' <> Idle ->
  exists A' pos', asteps A [] A' /\ R (tick K V (set_pc K V s (hp s) t p')) A' pos' /\ ext (time s) (hp s) pos (hp s) pos'.
Proof.
  intros Sc Sc' Ti E Ni. exists A, pos. split; [apply as_refl|]. split; [|apply ext_refl]. apply (sim_same p' (len s) Ti); [|exact Ni]. pose proof (r_rel _ _ _ H t) as Re. apply rel_plain in Re; [|exact Sc]. apply rel_plain; [exact Sc'|congruence].
Qed.

(** memory written *)
Section Write.
Variables (h' : heap) (pos' : posn) (p' : pc).
Hypothesis I' : Inv (S (time s)) h' pos'.
Hypothesis X : ext (time s) (hp s) pos h' pos'.
Hypothesis Ti' : TI h' pos' (pin s t) p'.
Hypothesis Sc : scanning p = false.
Hypothesis Sc' : scanning p' = false.
Hypothesis Ni : p' <> Idle.

Lemma others : exists A1, asteps A [] A1 /\ (forall k, am A1 k = abs (hp s) k) /\ ath A1 t = stt (hp s) pos p /\
  forall u, u <> t -> Rel h' pos' (pin s u) (S (time s)) (am A1) (pcs s u) (ath A1 u).
Proof.
  destruct (catch (time s) (hp s) pos h' pos' (pin s) (pcs s) (r_inv _ _ _ H) I' X (r_ti _ _ _ H) (fun u N => r_pin _ _ _ H u (not_idle s A pos u H N)) (List.remove Nat.eq_dec t (pinned s)) A (r_map _ _ _ H) (fun u => or_introl (r_rel _ _ _ H u)))
    as (A1 & S1 & EM & D & K1 & _).
  exists A1. split; [exact S1|]. split; [exact EM|]. split.
  - specialize (K1 t (remove_In _ _ _) (r_rel _ _ _ H t)). apply rel_plain in K1; [exact K1|exact Sc].
  - intros u N. destruct (in_dec Nat.eq_dec u (pinned s)) as [Hi|Hi]; [apply D; apply in_in_remove; assumption|].
    assert (Nr : ~ In u (List.remove Nat.eq_dec t (pinned s))) by (intros Q; apply in_remove in Q; tauto).
    specialize (K1 u Nr (r_rel _ _ _ H u)). rewrite (r_idle _ _ _ H u Hi) in *. exact K1.
Qed.
Lemma r_write A2 n : (forall k, am A2 k = abs h' k) -> Rel h' pos' (pin s t) (S (time s)) (am A2) p' (ath A2 t) ->
  (forall u, u <> t -> Rel h' pos' (pin s u) (S (time s)) (am A2) (pcs s u) (ath A2 u)) -> R (tick K V (set_len K V (set_pc K V s h' t p') n)) A2 pos'.
Proof.
  intros EM Rt Ru. constructor; cbn.
  - exact I'.
  - intros u Hu. pose proof (r_pin _ _ _ H u Hu). lia.
  - intros u Hu. rewrite fup_other; [exact (r_idle _ _ _ H u Hu)|]. intros ->. exact (Hu Pt).
  - intros u. destruct (Nat.eq_dec u t) as [->|N]; [rewrite fup_same; exact Ti'|rewrite fup_other by exact N].
    destruct (in_dec Nat.eq_dec u (pinned s)) as [Hi|Hi]; [exact (TI_ext K V keq hash (time s) (hp s) pos h' pos' (pin s u) X (r_pin _ _ _ H u Hi) _ (r_ti _ _ _ H u))|]. rewrite (r_idle _ _ _ H u Hi). exact Logic.I.
  - exact EM.
  - intros u. destruct (Nat.eq_dec u t) as [->|N]; [rewrite fup_same; exact Rt|rewrite fup_other by exact N; exact (Ru u N)].
Qed.
Lemma sim_quiet : (forall k, abs h' k = abs (hp s) k) -> stt h' pos' p' = stt (hp s) pos p -> exists A' pos'', asteps A [] A' /\ R (tick K V (set_pc K V s h' t p')) A' pos'' /\ ext (time s) (hp s) pos h' pos''.
Proof.
  intros EA E. destruct others as (A1 & S1 & EM & Et & Ru). exists A1, pos'. split; [exact S1|]. split; [|exact X]. apply (r_write A1 (len s)); [intros k; rewrite EM, EA; reflexivity| |exact Ru].
  apply rel_plain; [exact Sc'|congruence].
Qed.
Lemma sim_eff o m r : stt (hp s) pos p = APending o -> mstep (abs (hp s)) o = Some (m, r) -> (forall k, m k = abs h' k) -> stt h' pos' p' = AReady (ChtModel.RElem r) ->
  exists A' pos'', asteps A [] A' /\ R (tick K V (set_pc K V s h' t p')) A' pos'' /\ ext (time s) (hp s) pos h' pos''.
Proof.
  intros Eo Em EA E. destruct others as (A1 & S1 & EM & Et & Ru). destruct (mstep_ext (abs (hp s)) (am A1) o m r (fun k => eq_sym (EM k)) Em) as (m1 & Em1 & Q).
  set (A2 := MkA m1 (fup (fun u => watch m1 (ath A1 u)) t (AReady (ChtModel.RElem r)))). exists A2, pos'. split.
  - change (@nil (event K V)) with (@nil (event K V) ++ []). apply (asteps_app _ _ _ _ _ S1). apply asteps_one. unfold A2. destruct A1 as (m0, th0). cbn [am ath] in *. apply (a_eff K V keq m0 th0 t o m1 r); [congruence|exact Em1].
  - split; [|exact X]. apply (r_write A2 (len s)).
    + intros k. cbn. rewrite <- Q. apply EA.
    + cbn. rewrite fup_same. apply rel_plain; [exact Sc'|congruence].
    + intros u N. cbn. rewrite fup_other by exact N. exact (rel_watch K V keq hash _ _ _ _ _ _ _ _ (Ru u N)).
Qed.
End Write.
(** an effect without a write *)
Lemma sim_eff_same p' o m r : TI (hp s) pos (pin s t) p' -> scanning p = false -> scanning p' = false -> p' <> Idle -> stt (hp s) pos p = APending o ->
  mstep (abs (hp s)) o = Some (m, r) -> (forall k, m k = abs (hp s) k) -> stt (hp s) pos p' = AReady (ChtModel.RElem r) ->
  exists A' pos'', asteps A [] A' /\ R (tick K V (set_pc K V s (hp s) t p')) A' pos'' /\ ext (time s) (hp s) pos (hp s) pos''.
Proof.
  intros Ti Sc Sc' Ni Eo Em EA E. exact (sim_eff (hp s) pos p' (inv_time K V hash _ _ _ _ (Nat.le_succ_diag_r _) (r_inv _ _ _ H)) (ext_refl K V _ _ _) Ti Sc Sc' o m r Eo Em EA E).
Qed.
End Step.
End Sim.
