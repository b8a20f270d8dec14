(** The row index under every schedule: the steps of the calls. *)
From Coq Require Import List Arith NArith Bool Lia.
From Verif Require Import MtModel MtSpec MtProofs ChtModel ChtSpec ChtHeap ChtMap ChtRel ChtSim.
Import ListNotations.
Local Open Scope nat_scope.

Arguments BNone {K V}. Arguments BLeaf {K V}. Arguments BBr {K V}.
Arguments MkHeap {K V}. Arguments root {K V}. Arguments mem {K V}. Arguments next {K V}. Arguments rtd {K V}.
Arguments MkSt {K V}. Arguments hp {K V}. Arguments time {K V}. Arguments pinned {K V}. Arguments pin {K V}. Arguments len {K V}. Arguments pcs {K V}.
Arguments Idle {K V}. Arguments WLoad {K V}. Arguments WCas {K V}. Arguments GLoad {K V}. Arguments RLoad {K V}. Arguments RCas {K V}. Arguments RCount {K V}.
Arguments Freeze {K V}. Arguments CCas {K V}. Arguments Incr {K V}. Arguments Decr {K V}. Arguments SInit {K V}. Arguments SRun {K V}. Arguments LLoad {K V}. Arguments Ret {K V}.
Arguments NLeaf {K V}. Arguments NSplit {K V}. Arguments KWrite {K V}. Arguments KDel {K V}. Arguments KLoop {K V}.
Arguments ChtModel.OWrite {K V}. Arguments ChtModel.ODel {K V}. Arguments ChtModel.OGet {K V}. Arguments ChtModel.OScan {K V}. Arguments ChtModel.OLen {K V}.
Arguments ChtModel.RElem {K V}. Arguments ChtModel.RList {K V}. Arguments ChtModel.RLen {K V}.
Arguments PRet {K V}. Arguments PCas {K V}. Arguments PPanic {K V}.
Arguments EInv {K V}. Arguments ERet {K V}. Arguments Dis {K V}. Arguments Bad {K V}. Arguments Next {K V}.
Arguments MkA {K V}. Arguments am {K V}. Arguments ath {K V}. Arguments AIdle {K V}. Arguments APending {K V}. Arguments AScan {K V}. Arguments AReady {K V}.
Arguments watch {K V}. Arguments asteps {K V}. Arguments alive {K V}. Arguments leafdata {K V}. Arguments weight {K V}.

Section Steps.
Variables K V : Type.
Variable keq : K -> K -> bool.
Hypothesis keq_ok : forall a b, keq a b = true <-> a = b.
Variable hash : K -> N.
Notation elem := (K * V)%type.
Notation heap := (heap K V).
Notation chunk_at := (chunk_at K hash).
Notation sfind := (sfind K V keq).
Notation prefix := (prefix K hash).
Notation content := (content K V).
Notation linked := (linked K V).
Notation good := (good K V hash).
Notation valid := (valid K V hash).
Notation Inv := (Inv K V hash).
Notation abs := (abs K V keq hash).
Notation ext := (ext K V).
Notation pc := (pc K V).
Notation mstep := (mstep K V keq).
Notation athread := (athread K V).
Notation amap := (amap K V).

Notation TI := (TI K V keq hash).
Notation Rel := (Rel K V keq hash).
Notation stt := (stt K V keq hash).
Notation scanning := (scanning K V).
Notation okl := (okl K V hash).
Notation okp := (okp K V).
Notation okb := (okb K V).
Notation astep := (astep K V keq).
Notation asteps := (@ChtSpec.asteps K V keq).
Notation ast := (ast K V).
Notation st := (st K V).
Notation nul := (nul K V).
Notation fwl := (fwl K V keq hash).

Notation R := (R K V keq hash).
(** a step is not one the model calls undefined, the specification can follow it, and no block moves *)
Definition okout (s : st) (A : ast) (pos : posn) (o : outcome K V) : Prop :=
  match o with Dis => True | Bad => False | Next s' e => exists A' pos', asteps A e A' /\ R (tick K V s') A' pos' /\ ext (time s) (hp s) pos (hp s') pos' end.

(** ** What a write plans *)
Lemma sfind_app k (d1 d2 : list elem) : sfind k (d1 ++ d2) = match sfind k d1 with Some x => Some x | None => sfind k d2 end.
Proof. unfold MtSpec.sfind. induction d1 as [|e d1 IH]; cbn; [reflexivity|]. destruct (keq k (fst e)); [reflexivity|exact IH]. Qed.
Lemma sfind_sdel k k0 (d : list elem) : sfind k (sdel K V keq k0 d) = if keq k k0 then None else sfind k d.
Proof.
  unfold MtSpec.sfind, sdel. induction d as [|e d IH]; cbn; [destruct (keq k k0); reflexivity|]. destruct (keq k0 (fst e)) eqn:E; cbn.
  - rewrite IH. apply keq_ok in E. subst k0. destruct (keq k (fst e)); reflexivity.
  - destruct (keq k (fst e)) eqn:Q; [|exact IH]. apply keq_ok in Q. subst k. destruct (keq (fst e) k0) eqn:Q; [|reflexivity]. apply keq_ok in Q. subst k0. rewrite keq_refl in E by exact keq_ok. discriminate E.
Qed.
Lemma sdel_map k (d : list elem) x : In x (map fst (sdel K V keq k d)) -> In x (map fst d) /\ x <> k.
Proof. intros E. apply in_map_iff in E. destruct E as (e & <- & E). apply sdel_in in E; [|exact keq_ok]. destruct E as (E & N). split; [apply in_map; exact E|exact N]. Qed.

Lemma wleaf_cons m (e : elem) n d e0 d1 : d = e0 :: d1 -> wleaf K V keq hash m e n d =
  (if negb (keq (fst e) (fst e0)) && (n <? 16) then match m with Refresh => PRet None | _ => PCas (NSplit (chunk_at (fst e0) n)) end
   else match position K V keq (fst e) d with
        | Some i => match nth_error d i with None => PPanic | Some o => match m with Fresh => PRet (Some o) | _ => PCas (NLeaf ((firstn i d ++ skipn (S i) d) ++ [e]) false (Some o)) end end
        | None => match m with Refresh => PRet None | _ => PCas (NLeaf (d ++ [e]) true None) end
        end).
Proof. intros ->. reflexivity. Qed.
Section Plan.
Variables (m : wmode) (e : elem) (n : nat) (d : list elem).
Hypothesis G : good (prefix (fst e) n) d.
Lemma put_last d0 : (forall x, In x (map fst d0) -> x <> fst e) -> forall k, sfind k (d0 ++ [e]) = if keq k (fst e) then Some e else sfind k d0.
Proof.
  intros N k. rewrite sfind_app. change (sfind k [e]) with (if keq k (fst e) then Some e else None). destruct (sfind k d0) as [x|] eqn:E; [|reflexivity]. destruct (keq k (fst e)) eqn:Q; [|reflexivity]. exfalso. apply keq_ok in Q. subst k.
  apply sfind_some in E; [|exact keq_ok]. destruct E as (E & Ek). apply (N (fst x)); [apply in_map; exact E|exact Ek].
Qed.
Lemma good_last d0 : NoDup (map fst d0) -> (forall x, In x d0 -> In x d) -> (forall x, In x (map fst d0) -> x <> fst e) -> (n < 16 -> d0 = []) -> good (prefix (fst e) n) (d0 ++ [e]).
Proof.
  intros ND Sub N E. split; [destruct d0; discriminate|]. split; [|split].
  - rewrite map_app. cbn. 
    apply NoDup_rev in ND. rewrite <- (rev_involutive (map fst d0 ++ [fst e])). apply NoDup_rev. rewrite rev_app_distr. cbn. constructor; [|exact ND]. rewrite <- in_rev. intros Q. exact (N _ Q eq_refl).
  - intros x Hx. apply in_app_iff in Hx. destruct Hx as [Hx|[<-|[]]]; [|rewrite prefix_len; reflexivity]. destruct G as (_ & _ & G' & _). exact (G' x (Sub x Hx)).
  - rewrite prefix_len. intros L. rewrite (E L). reflexivity.
Qed.
Lemma wleaf_leaf d' up r : wleaf K V keq hash m e n d = PCas (NLeaf d' up r) ->
  good (prefix (fst e) n) d' /\ (forall k, sfind k d' = if keq k (fst e) then Some e else sfind k d) /\ r = sfind (fst e) d /\ (up = true -> r = None) /\ (m = Fresh -> r = None) /\ (m = Refresh -> r <> None).
Proof.
  pose proof G as G0. destruct G0 as (NE & ND & _ & L1). rewrite prefix_len in L1. assert (D : exists e0 d1, d = e0 :: d1) by (clear - NE; destruct d; [congruence|eauto]). destruct D as (e0 & d1 & Ed). rewrite (wleaf_cons m e n d e0 d1 Ed).
  destruct (negb (keq (fst e) (fst e0)) && (n <? 16)) eqn:C; [destruct m; discriminate|].
  destruct (position K V keq (fst e) d) as [i|] eqn:P.
  - destruct (position_some K V keq keq_ok _ _ _ P) as (o & No & Ko & Fo). rewrite No. rewrite (del_at K V keq keq_ok d i o ND No), Ko. destruct m; try discriminate; intros Q; injection Q as <- <- <-; (split; [|split; [|split; [symmetry; exact Fo|repeat split; intros; discriminate]]]).
    1, 3: apply good_last; [apply sdel_nodup; exact ND|intros x Hx; apply sdel_in in Hx; [tauto|exact keq_ok]|intros x Hx; apply sdel_map in Hx; tauto|].
    1, 2: intros L; specialize (L1 L); rewrite Ed in L1; destruct d1; [|discriminate L1]; rewrite Ed in No, Fo |- *; destruct i as [|i]; [|destruct i; discriminate No]; cbn in No; injection No as ->; cbn; rewrite Ko, keq_refl by exact keq_ok; reflexivity.
    1, 2: intros k; rewrite put_last, sfind_sdel by (intros x Hx; apply sdel_map in Hx; tauto); destruct (keq k (fst e)); reflexivity.
  - pose proof (position_none K V keq _ _ P) as F. destruct m; try discriminate; intros Q; injection Q as <- <- <-; pose proof (proj1 (sfind_none K V keq keq_ok (fst e) d) F) as Nin.
    1, 2: split; [|split; [|split; [symmetry; exact F|repeat split; intros; congruence]]].
    1, 3: apply good_last; [exact ND|auto|intros x Hx ->; exact (Nin Hx)|]; intros L; exfalso; specialize (L1 L); rewrite Ed in L1; destruct d1; [|discriminate L1]; apply Nin; rewrite Ed; left;
          apply Nat.ltb_lt in L; rewrite L, andb_true_r in C; apply negb_false_iff in C; apply keq_ok in C; symmetry; exact C.
    1, 2: apply put_last; intros x Hx ->; exact (Nin Hx).
Qed.
Lemma wleaf_ret r : wleaf K V keq hash m e n d = PRet r -> r = sfind (fst e) d /\ ((m = Fresh /\ r <> None) \/ (m = Refresh /\ r = None)).
Proof.
  pose proof G as G0. destruct G0 as (NE & ND & _ & L1). rewrite prefix_len in L1. assert (D : exists e0 d1, d = e0 :: d1) by (clear - NE; destruct d; [congruence|eauto]). destruct D as (e0 & d1 & Ed). rewrite (wleaf_cons m e n d e0 d1 Ed).
  destruct (negb (keq (fst e) (fst e0)) && (n <? 16)) eqn:C.
  - apply andb_true_iff in C. destruct C as (C & L). apply Nat.ltb_lt in L. specialize (L1 L). rewrite Ed in L1. destruct d1; [|discriminate L1]. apply negb_true_iff in C.
    destruct m; try discriminate. intros Q. injection Q as <-. split; [|right; auto]. rewrite Ed. unfold MtSpec.sfind. cbn. rewrite C. reflexivity.
  - destruct (position K V keq (fst e) d) as [i|] eqn:P.
    + destruct (position_some K V keq keq_ok _ _ _ P) as (o & No & Ko & Fo). rewrite No. destruct m; try discriminate. intros Q. injection Q as <-. split; [symmetry; exact Fo|left; split; [reflexivity|discriminate]].
    + pose proof (position_none K V keq _ _ P) as F. destruct m; try discriminate. intros Q. injection Q as <-. auto.
Qed.
Lemma wleaf_split i : wleaf K V keq hash m e n d = PCas (NSplit i) -> n < 16 /\ exists e0, d = [e0] /\ i = chunk_at (fst e0) n.
Proof.
  pose proof G as G0. destruct G0 as (NE & ND & _ & L1). rewrite prefix_len in L1. assert (D : exists e0 d1, d = e0 :: d1) by (clear - NE; destruct d; [congruence|eauto]). destruct D as (e0 & d1 & Ed). rewrite (wleaf_cons m e n d e0 d1 Ed).
  destruct (negb (keq (fst e) (fst e0)) && (n <? 16)) eqn:C.
  - apply andb_true_iff in C. destruct C as (C & L). apply Nat.ltb_lt in L. specialize (L1 L). rewrite Ed in L1. destruct d1; [|discriminate L1]. intros Q. split; [exact L|]. exists e0. split; [exact Ed|].
    destruct m; congruence.
  - destruct (position K V keq (fst e) d) as [j|]; [destruct (nth_error d j); [|discriminate]|]; destruct m; discriminate.
Qed.
Lemma wleaf_fine : wleaf K V keq hash m e n d <> PPanic.
Proof.
  pose proof G as G0. destruct G0 as (NE & _). assert (D : exists e0 d1, d = e0 :: d1) by (clear - NE; destruct d; [congruence|eauto]). destruct D as (e0 & d1 & Ed). rewrite (wleaf_cons m e n d e0 d1 Ed). destruct (negb (keq (fst e) (fst e0)) && (n <? 16)); [destruct m; discriminate|].
  destruct (position K V keq (fst e) d) as [i|] eqn:P; [|destruct m; discriminate]. destruct (position_some K V keq keq_ok _ _ _ P) as (o & No & _). rewrite No. destruct m; discriminate.
Qed.
End Plan.
Lemma mstep_yes (M : amap) m e r : r = M (fst e) -> (m = Fresh -> r = None) -> (m = Refresh -> r <> None) -> mstep M (ChtModel.OWrite m e) = Some (put K V keq e M, r).
Proof. intros -> A B. destruct m; cbn; [rewrite (A eq_refl); reflexivity| |reflexivity]. destruct (M (fst e)); [reflexivity|]. exfalso. exact (B eq_refl eq_refl). Qed.
Lemma mstep_no (M : amap) m e r : r = M (fst e) -> ((m = Fresh /\ r <> None) \/ (m = Refresh /\ r = None)) -> mstep M (ChtModel.OWrite m e) = Some (M, r).
Proof. intros -> [(-> & N)|(-> & N)]; cbn; destruct (M (fst e)); congruence. Qed.

Lemma linked_leaf T h pos k l n x : Inv T h pos -> linked h l -> content h l = Some (x, false) -> lpath pos l = prefix k n -> (forall c, x <> PBr c) -> abs h k = sfind k (leafdata h x).
Proof.
  intros I Lk C P NB. rewrite (walk_at K V keq hash T h pos I k n l x false Lk C P). destruct x as [|a|a]; [rewrite walk_null; reflexivity| |exfalso; exact (NB a eq_refl)].
  destruct (linked_valid K V hash T h pos I l _ false Lk C) as ((d & M & _) & _). rewrite (walk_leaf K V keq hash _ _ _ _ _ d M). cbn [leafdata]. rewrite M. reflexivity.
Qed.
Lemma ptr_eqb_true p q : ptr_eqb p q = true -> p = q.
Proof. destruct p, q; cbn; try discriminate; intros E; try reflexivity; apply Nat.eqb_eq in E; congruence. Qed.
Lemma cas_inv (s : st) t l old b x g : rd K V (hp s) (pin s t) l = Some (x, g) -> cas_ok K V s t l old = Some b -> b = true -> x = old /\ g = false.
Proof. intros E. unfold cas_ok. rewrite E. intros Q ->. injection Q as Q. apply andb_true_iff in Q. destruct Q as (Q1 & Q2). split; [apply ptr_eqb_true; exact Q2|destruct g; [discriminate Q1|reflexivity]]. Qed.
Lemma cas_some (s : st) t l old x g : rd K V (hp s) (pin s t) l = Some (x, g) -> exists b, cas_ok K V s t l old = Some b.
Proof. intros E. unfold cas_ok. rewrite E. eauto. Qed.

(** ** The steps *)
Section Cases.
Variables (s : st) (A : ast) (pos : posn) (t : nat).
Hypothesis H : R s A pos.
Let I := r_inv _ _ _ _ _ _ _ H.
Notation h := (hp s).
Notation pt := (pin s t).

Lemma child_okl k a n : okb h pt a -> pos a = prefix k n -> okl h pos pt k (LSlot a (chunk_at k n)) (S n).
Proof. intros B P. split; [cbn [lpath]; rewrite P, prefix_S; reflexivity|exact B]. Qed.
Lemma child_okp k l a n : okl h pos pt k l n -> okb h pt a -> pos a = prefix k n -> okp h pos pt (l, a).
Proof.
  intros O B P. split; [cbn [fst snd]; rewrite P; symmetry; exact (proj1 O)|]. split; [exact B|]. cbn [fst]. destruct (okl_len K V hash _ _ _ I pt k l n O) as (_ & Li). destruct O as (_ & O). destruct l; [exact Logic.I|]. split; [exact Li|exact O].
Qed.
Lemma wload_ok m e l n par : pcs s t = WLoad m e l n par -> okout s A pos (wload K V keq hash s t m e l n par).
Proof.
  intros Ep. assert (Ni : pcs s t <> Idle) by (rewrite Ep; discriminate). pose proof (r_ti _ _ _ _ _ _ _ H t) as Ti. rewrite Ep in Ti. destruct Ti as (O & Pa). assert (Sc : scanning (pcs s t) = false) by (rewrite Ep; reflexivity).
  assert (Es : stt h pos (pcs s t) = APending (ChtModel.OWrite m e)) by (rewrite Ep; reflexivity).
  destruct (okl_rd K V hash _ _ _ I pt (fst e) l n O) as (x & g & Rd & C & W). unfold wload. rewrite Rd. destruct g.
  - assert (E : match x with PNull => match par with Some (pl, c) => go K V s t (Freeze (KWrite m e) pl c []) | None => Bad end | _ => match par with Some (pl, c) => go K V s t (Freeze (KWrite m e) pl c []) | None => Bad end end
      = match par with Some (pl, c) => go K V s t (Freeze (KWrite m e) pl c []) | None => Bad end) by (destruct x; reflexivity).
    assert (Z : okout s A pos (match par with Some (pl, c) => go K V s t (Freeze (KWrite m e) pl c []) | None => Bad end)); [|destruct x; exact Z].
    destruct par as [(pl, c)|]; [|cbn in Pa; subst l; cbn in C; congruence]. destruct Pa as (Pq & _). cbn [okout go].
    apply (sim_same_plain K V keq hash s A pos t H Ni); [exact Sc|reflexivity| |rewrite Es; reflexivity|discriminate].
    split; [exact Pq|]. split; [exact Logic.I|]. split; [cbn; lia|]. intros f Mf [|i] y Ey; discriminate Ey.
  - pose proof (okl_linked K V hash _ _ _ I pt (fst e) l n x O C) as Lk. destruct x as [|a|a].
    + pose proof (linked_leaf _ _ _ (fst e) l n PNull I Lk C (proj1 O) ltac:(discriminate)) as Ab. cbn in Ab. destruct m.
      * cbn [okout go]. apply (sim_same_plain K V keq hash s A pos t H Ni); [exact Sc|reflexivity| |rewrite Es; reflexivity|discriminate].
        split; [exact O|]. split; [exact Pa|]. left. repeat split. discriminate.
      * cbn [okout go]. apply (sim_eff_same K V keq keq_ok hash s A pos t H Ni _ _ (abs h) None) with (2 := Sc) (5 := Es); [exact Logic.I|reflexivity|discriminate| |reflexivity|reflexivity].
        apply mstep_no; [symmetry; exact Ab|right; auto].
      * cbn [okout go]. apply (sim_same_plain K V keq hash s A pos t H Ni); [exact Sc|reflexivity| |rewrite Es; reflexivity|discriminate].
        split; [exact O|]. split; [exact Pa|]. left. repeat split. discriminate.
    + destruct W as (d & M & G & Al). rewrite (rdleaf_ok K V h pt a d M Al).
      pose proof (linked_leaf _ _ _ (fst e) l n (PLeaf a) I Lk C (proj1 O) ltac:(discriminate)) as Ab. cbn [leafdata] in Ab. rewrite M in Ab.
      destruct (wleaf K V keq hash m e n d) as [r|w|] eqn:Ew; [| |exact (wleaf_fine m e n d G Ew)]; cbn [okout go].
      * destruct (wleaf_ret m e n d G r Ew) as (Er & Cs). apply (sim_eff_same K V keq keq_ok hash s A pos t H Ni _ _ (abs h) r) with (2 := Sc) (5 := Es); [exact Logic.I|reflexivity|discriminate| |reflexivity|reflexivity].
        apply mstep_no; [congruence|exact Cs].
      * apply (sim_same_plain K V keq hash s A pos t H Ni); [exact Sc|reflexivity| |rewrite Es; reflexivity|discriminate]. split; [exact O|]. split; [exact Pa|]. right. exists a, d. auto.
    + destruct W as (B & P & L). assert (L' : (n <? 16) = true) by (apply Nat.ltb_lt; exact L). rewrite L'. cbn [okout go].
      apply (sim_same_plain K V keq hash s A pos t H Ni); [exact Sc|reflexivity| |rewrite Es; reflexivity|discriminate].
      split; [exact (child_okl (fst e) a n B P)|]. split; [exact (child_okp (fst e) l a n O B P)|cbn; eauto].
Qed.

Lemma wcas_ok m e l n par old w : pcs s t = WCas m e l n par old w -> okout s A pos (wcas K V s t m e l n par old w).
Proof.
  intros Ep. assert (Ni : pcs s t <> Idle) by (rewrite Ep; discriminate). pose proof (r_ti _ _ _ _ _ _ _ H t) as Ti. rewrite Ep in Ti. destruct Ti as (O & Pa & Pl). assert (Sc : scanning (pcs s t) = false) by (rewrite Ep; reflexivity).
  assert (Es : stt h pos (pcs s t) = APending (ChtModel.OWrite m e)) by (rewrite Ep; reflexivity).
  destruct (okl_rd K V hash _ _ _ I pt (fst e) l n O) as (x & g & Rd & C & W). unfold wcas. destruct (cas_some s t l old x g Rd) as (b & Cb). rewrite Cb. destruct b.
  2: { cbn [okout go]. apply (sim_same_plain K V keq hash s A pos t H Ni); [exact Sc|reflexivity|split; [exact O|exact Pa]|rewrite Es; reflexivity|discriminate]. }
  destruct (cas_inv s t l old true x g Rd Cb eq_refl) as (-> & ->). pose proof (okl_linked K V hash _ _ _ I pt (fst e) l n old O C) as Lk.
  assert (NB : forall c, old <> PBr c) by (intros c; destruct Pl as [(-> & _)|(a & d & -> & _)]; discriminate).
  pose proof (linked_leaf _ _ _ (fst e) l n old I Lk C (proj1 O) NB) as Ab.
  assert (LEAF : forall d' up r, good (prefix (fst e) n) d' -> (forall k, sfind k d' = if keq k (fst e) then Some e else sfind k (leafdata h old)) -> r = sfind (fst e) (leafdata h old) -> (up = true -> r = None) ->
    (m = Fresh -> r = None) -> (m = Refresh -> r <> None) ->
    okout s A pos (match out K V (wr K V (alloc K V h (BLeaf d')) l (PLeaf (next h), false)) (S (time s)) old with None => Bad | Some h' => goh K V s h' t (if up then Incr else Ret (ChtModel.RElem r)) end)).
  { intros d' up r G F Er Up Fr Rf. rewrite <- (proj1 O) in G. destruct (put_leaf K V keq hash (time s) h pos l old d' I Lk C NB G) as (h' & pos' & Eo & I' & X & Off & On). rewrite Eo. cbn [okout goh].
    apply (sim_eff K V keq keq_ok hash s A pos t H Ni h' pos' _ I' X) with (o := ChtModel.OWrite m e) (m := put K V keq e (abs h)) (r := r).
    - destruct up; exact Logic.I.
    - exact Sc.
    - destruct up; reflexivity.
    - exact Es.
    - apply mstep_yes; [congruence|exact Fr|exact Rf].
    - intros k. unfold put. destruct (on_dec K hash pos l k) as [(n' & P)|Q].
      + destruct (On k n' P) as (A1 & A2). rewrite A1, A2, F. reflexivity.
      + rewrite (Off k Q). destruct (keq k (fst e)) eqn:E; [|reflexivity]. exfalso. apply keq_ok in E. subst k. exact (Q n (proj1 O)).
    - destruct up; [rewrite (Up eq_refl); reflexivity|reflexivity]. }
  destruct Pl as [(-> & -> & Nr)|(a & d & -> & M & Ew)].
  - apply (LEAF [e] true None); try congruence; [|reflexivity|reflexivity].
    split; [discriminate|]. split; [repeat constructor; intros []|]. split; [intros x [<-|[]]; rewrite prefix_len; reflexivity|reflexivity].
  - destruct W as (d0 & M0 & G & Al). rewrite M in M0. injection M0 as <-. assert (Ed : leafdata h (PLeaf a) = d) by (cbn; rewrite M; reflexivity). rewrite Ed in *. destruct w as [d' up r|i].
    + destruct (wleaf_leaf m e n d G d' up r Ew) as (G' & F & Er & Up & Fr & Rf). apply (LEAF d' up r); assumption.
    + destruct (wleaf_split m e n d G i Ew) as (L & e0 & -> & ->). pose proof (proj1 O) as P. assert (Ll : length (lpath pos l) = n) by (rewrite P, prefix_len; reflexivity).
      destruct (split_leaf K V keq keq_ok hash (time s) h pos l a e0 n I Lk C M Ll L) as (pos' & I' & X & EA). cbn [okout goh].
      pose proof (r_pin _ _ _ _ _ _ _ H t (not_idle K V keq hash s A pos t H Ni)) as Lt.
      apply (sim_quiet K V keq keq_ok hash s A pos t H Ni _ pos' _ I' X); [|exact Sc|reflexivity|exact EA|rewrite Es; reflexivity].
      split; [exact (okl_ext K V hash _ _ _ _ _ pt X Lt _ _ _ O)|exact (okpar_ext K V _ _ _ _ _ pt X Lt _ _ Pa)].
Qed.

Lemma shift_chunk k n : N.to_nat (N.land (N.shiftr (hash k) (4 * N.of_nat n)) mask) = chunk_at k n.
Proof. reflexivity. Qed.
Lemma gload_ok k l hh : pcs s t = GLoad k l hh -> okout s A pos (gload K V keq s t k l hh).
Proof.
  intros Ep. assert (Ni : pcs s t <> Idle) by (rewrite Ep; discriminate). pose proof (r_ti _ _ _ _ _ _ _ H t) as Ti. rewrite Ep in Ti. destruct Ti as (n & O & Eh). assert (Sc : scanning (pcs s t) = false) by (rewrite Ep; reflexivity).
  assert (Ll : length (lpath pos l) = n) by (rewrite (proj1 O), prefix_len; reflexivity).
  assert (Es : stt h pos (pcs s t) = match fwl h (16 - n) l n k with Some r => AReady (ChtModel.RElem r) | None => APending (ChtModel.OGet k) end) by (rewrite Ep; cbn [ChtRel.stt]; rewrite Ll; reflexivity).
  destruct (okl_rd K V hash _ _ _ I pt k l n O) as (x & g & Rd & C & W). unfold gload. rewrite Rd.
  destruct (okl_len K V hash _ _ _ I pt k l n O) as (L16 & Li).
  (* in the tree, or not *)
  assert (D : (linked h l /\ fwl h (16 - n) l n k = None) \/ exists b i f u, l = LSlot b i /\ mem h b = BBr f /\ rtd h b = Some u /\ f i = (x, g)).
  { destruct l as [|b i]; [left; split; [exact Logic.I|destruct (16 - n); reflexivity]|]. destruct O as (_ & (f & M) & _). cbn in C. rewrite M in C. injection C as C. destruct (rtd h b) as [u|] eqn:Ru; [right; exists b, i, f, u; auto|].
    left. split; [split; [exact Li|]; split; [exact Ru|eauto]|]. destruct (16 - n); cbn [ChtRel.fwl]; rewrite Ru; reflexivity. }
  assert (RET : forall r, (linked h l -> abs h k = r) -> (forall b i f u, l = LSlot b i -> mem h b = BBr f -> rtd h b = Some u -> f i = (x, g) -> fwl h (16 - n) l n k = Some r) -> okout s A pos (go K V s t (Ret (ChtModel.RElem r)))).
  { intros r R1 R2. cbn [okout go]. destruct D as [(Lk & Fn)|(b & i & f & u & E1 & E2 & E3 & E4)].
    - rewrite Fn in Es. apply (sim_eff_same K V keq keq_ok hash s A pos t H Ni _ _ (abs h) r) with (2 := Sc) (5 := Es); [exact Logic.I|reflexivity|discriminate| |reflexivity|reflexivity]. rewrite <- (R1 Lk). reflexivity.
    - rewrite (R2 b i f u E1 E2 E3 E4) in Es. apply (sim_same_plain K V keq hash s A pos t H Ni); [exact Sc|reflexivity|exact Logic.I|rewrite Es; reflexivity|discriminate]. }
  destruct x as [|a|a].
  - apply RET.
    + intros Lk. rewrite (walk_at K V keq hash _ _ _ I k n l _ g Lk C (proj1 O)). apply walk_null.
    + intros b i f u -> M Ru F. destruct (16 - n); cbn [ChtRel.fwl]; rewrite Ru, M, F; reflexivity.
  - destruct W as (d & M & G & Al). rewrite (rdleaf_ok K V h pt a d M Al). apply RET.
    + intros Lk. rewrite (walk_at K V keq hash _ _ _ I k n l _ g Lk C (proj1 O)). apply walk_leaf. exact M.
    + intros b i f u -> Mb Ru F. destruct (16 - n); cbn [ChtRel.fwl]; rewrite Ru, Mb, F; cbn [fst leafdata]; rewrite M; reflexivity.
  - destruct W as (B & P & L). rewrite Eh, shift_chunk. cbn [okout go]. apply (sim_same_plain K V keq hash s A pos t H Ni); [exact Sc|reflexivity| | |discriminate].
    + exists (S n). split; [exact (child_okl k a n B P)|]. rewrite N.shiftr_shiftr. f_equal. unfold branch_lg. lia.
    + rewrite Es. cbn [ChtRel.stt]. replace (length (lpath pos (LSlot a (chunk_at k n)))) with (S n) by (rewrite (proj1 (child_okl k a n B P)), prefix_len; reflexivity).
      replace (fwl h (16 - n) l n k) with (fwl h (16 - S n) (LSlot a (chunk_at k n)) (S n) k); [reflexivity|]. destruct D as [(Lk & Fn)|(b & i & f & u & E1 & E2 & E3 & E4)].
      * rewrite Fn. destruct (linked_valid K V hash _ _ _ I l _ g Lk C) as (_ & _ & Ra). cbn in Ra. destruct (16 - S n); cbn [ChtRel.fwl]; rewrite Ra; reflexivity.
      * subst l. replace (16 - n) with (S (16 - S n)) by lia. cbn [ChtRel.fwl]. rewrite E3, E2, E4. reflexivity.
Qed.

Lemma rload_ok k l n lv : pcs s t = RLoad k l n lv -> okout s A pos (rload K V keq hash s t k l n lv).
Proof.
  intros Ep. assert (Ni : pcs s t <> Idle) by (rewrite Ep; discriminate). pose proof (r_ti _ _ _ _ _ _ _ H t) as Ti. rewrite Ep in Ti. destruct Ti as (O & Lv). assert (Sc : scanning (pcs s t) = false) by (rewrite Ep; reflexivity).
  assert (Es : stt h pos (pcs s t) = if nul h l then AReady (ChtModel.RElem None) else APending (ChtModel.ODel k)) by (rewrite Ep; reflexivity).
  destruct (okl_rd K V hash _ _ _ I pt k l n O) as (x & g & Rd & C & W). unfold rload. rewrite Rd. destruct (okl_len K V hash _ _ _ I pt k l n O) as (L16 & Li).
  assert (NN : x <> PNull -> nul h l = false).
  { intros N. destruct l as [|b i]; [reflexivity|]. cbn in C |- *. destruct (mem h b) as [|d|f]; [destruct (rtd h b); reflexivity|destruct (rtd h b); reflexivity|]. injection C as C. rewrite C. destruct (rtd h b); [|reflexivity]. cbn. destruct x; [congruence|reflexivity|reflexivity]. }
  assert (FRZ : x <> PNull -> g = true -> okout s A pos (match lv with (pl, c) :: _ => go K V s t (Freeze (KDel k) pl c []) | [] => Bad end)).
  { intros N ->. destruct Lv as (Fa & _ & Lv). destruct lv as [|(pl, c) lv]; [subst l; cbn in C; congruence|]. cbn [okout go]. rewrite (NN N) in Es.
    apply (sim_same_plain K V keq hash s A pos t H Ni); [exact Sc|reflexivity| |rewrite Es; reflexivity|discriminate].
    split; [exact (Forall_inv Fa)|]. split; [exact Logic.I|]. split; [cbn; lia|]. intros f Mf [|i] y Ey; discriminate Ey. }
  destruct x as [|a|a].
  - cbn [okout go]. destruct l as [|b i].
    + cbn [ChtRel.nul] in Es. pose proof (walk_at K V keq hash _ _ _ I k n LRoot _ g Logic.I C (proj1 O)) as Ab. rewrite walk_null in Ab.
      apply (sim_eff_same K V keq keq_ok hash s A pos t H Ni _ _ (del K V keq k (abs h)) None) with (2 := Sc) (5 := Es); [exact Logic.I|reflexivity|discriminate|rewrite <- Ab; reflexivity| |reflexivity].
      intros k0. unfold del. destruct (keq k0 k) eqn:Q; [|reflexivity]. apply keq_ok in Q. subst k0. symmetry. exact Ab.
    + destruct (proj2 O) as ((f & M) & Al). cbn in C. rewrite M in C. injection C as C. cbn [ChtRel.nul] in Es. rewrite M, C in Es. cbn [fst] in Es. destruct (rtd h b) as [u|] eqn:Ru.
      * apply (sim_same_plain K V keq hash s A pos t H Ni); [exact Sc|reflexivity|exact Logic.I|rewrite Es; reflexivity|discriminate].
      * assert (Lk : linked h (LSlot b i)) by (split; [exact Li|]; split; [exact Ru|eauto]). pose proof (walk_at K V keq hash _ _ _ I k n (LSlot b i) PNull g Lk ltac:(cbn; rewrite M, C; reflexivity) (proj1 O)) as Ab. rewrite walk_null in Ab.
        apply (sim_eff_same K V keq keq_ok hash s A pos t H Ni _ _ (del K V keq k (abs h)) None) with (2 := Sc) (5 := Es); [exact Logic.I|reflexivity|discriminate|rewrite <- Ab; reflexivity| |reflexivity].
        intros k0. unfold del. destruct (keq k0 k) eqn:Q; [|reflexivity]. apply keq_ok in Q. subst k0. symmetry. exact Ab.
  - specialize (NN ltac:(discriminate)). destruct g; [apply FRZ; [discriminate|reflexivity]|]. destruct W as (d & M & G & Al). rewrite (rdleaf_ok K V h pt a d M Al). cbn [okout go].
    apply (sim_same_plain K V keq hash s A pos t H Ni); [exact Sc|reflexivity| |rewrite Es; reflexivity|discriminate].
    split; [exact O|]. split; [exact Lv|]. exists d. split; [exact M|]. destruct G as (_ & ND & _). split; [exact ND|]. split; [reflexivity|]. rewrite (fold_last K V keq keq_ok k d ND). destruct (sfind k d); reflexivity.
  - specialize (NN ltac:(discriminate)). destruct g; [apply FRZ; [discriminate|reflexivity]|]. destruct W as (B & P & L). destruct Lv as (Fa & Ln & Lv).
    assert (E : (length lv <? branch_mx) && (n <? 16) = true) by (rewrite Ln; unfold branch_mx; apply andb_true_iff; split; apply Nat.ltb_lt; exact L). rewrite E. cbn [okout go].
    apply (sim_same_plain K V keq hash s A pos t H Ni); [exact Sc|reflexivity| | |discriminate].
    + split; [exact (child_okl k a n B P)|]. split; [constructor; [exact (child_okp k l a n O B P)|exact Fa]|]. split; [cbn; rewrite Ln; reflexivity|cbn; eauto].
    + rewrite Es, NN. cbn [ChtRel.stt ChtRel.nul]. pose proof (okl_linked K V hash _ _ _ I pt k l n _ O C) as Lk. destruct (linked_valid K V hash _ _ _ I l _ _ Lk C) as (_ & _ & Ra). cbn in Ra. rewrite Ra. reflexivity.
Qed.

Lemma loop_ti h0 pos0 r lv : Forall (okp h0 pos0 pt) lv -> TI h0 pos0 pt (loop K V r lv).
Proof. intros F. destruct lv; [exact Logic.I|]. split; [discriminate|exact F]. Qed.
Lemma loop_stt h0 pos0 r lv : stt h0 pos0 (loop K V r lv) = AReady (ChtModel.RElem r) /\ scanning (loop K V r lv) = false /\ loop K V r lv <> Idle.
Proof. destruct lv; repeat split; discriminate. Qed.

Lemma rcas_ok k l n lv a d r : pcs s t = RCas k l n lv a d r -> okout s A pos (rcas K V s t k l n lv a d r).
Proof.
  intros Ep. assert (Ni : pcs s t <> Idle) by (rewrite Ep; discriminate). pose proof (r_ti _ _ _ _ _ _ _ H t) as Ti. rewrite Ep in Ti. destruct Ti as (O & Lv & d0 & M & ND & Ed & Er). assert (Sc : scanning (pcs s t) = false) by (rewrite Ep; reflexivity).
  assert (Es : stt h pos (pcs s t) = if nul h l then AReady (ChtModel.RElem None) else APending (ChtModel.ODel k)) by (rewrite Ep; reflexivity).
  destruct (okl_rd K V hash _ _ _ I pt k l n O) as (x & g & Rd & C & W). unfold rcas. destruct (cas_some s t l (PLeaf a) x g Rd) as (b & Cb). rewrite Cb. destruct b.
  2: { cbn [okout go]. apply (sim_same_plain K V keq hash s A pos t H Ni); [exact Sc|reflexivity|split; [exact O|exact Lv]|rewrite Es; reflexivity|discriminate]. }
  destruct (cas_inv s t l _ true x g Rd Cb eq_refl) as (-> & ->). pose proof (okl_linked K V hash _ _ _ I pt k l n _ O C) as Lk.
  assert (NN : nul h l = false). { destruct l as [|b i]; [reflexivity|]. destruct Lk as (_ & Rb & _). cbn. rewrite Rb. reflexivity. } rewrite NN in Es.
  pose proof (linked_leaf _ _ _ k l n (PLeaf a) I Lk C (proj1 O) ltac:(discriminate)) as Ab. assert (Ld : leafdata h (PLeaf a) = d0) by (cbn; rewrite M; reflexivity). rewrite Ld in Ab.
  destruct W as (d1 & M1 & G & Al). rewrite M in M1. injection M1 as <-.
  pose proof (r_pin _ _ _ _ _ _ _ H t (not_idle K V keq hash s A pos t H Ni)) as Lt. destruct Lv as (Fa & Ln & Lv).
  assert (FIN : forall h' pos', Inv (S (time s)) h' pos' -> ext (time s) h pos h' pos' -> (forall k0, (forall n0, lpath pos l <> prefix k0 n0) -> abs h' k0 = abs h k0) ->
    (forall k0 n0, lpath pos l = prefix k0 n0 -> abs h' k0 = sfind k0 d /\ abs h k0 = sfind k0 d0) -> okout s A pos (goh K V s h' t (loop K V r lv))).
  { intros h' pos' I' X Off On. cbn [okout goh]. destruct (loop_stt h' pos' r lv) as (E1 & E2 & E3). apply (sim_eff K V keq keq_ok hash s A pos t H Ni h' pos' _ I' X) with (o := ChtModel.ODel k) (m := del K V keq k (abs h)) (r := r).
    - apply loop_ti. exact (okps_ext K V _ _ _ _ _ pt X Lt lv Fa).
    - exact Sc.
    - exact E2.
    - exact Es.
    - rewrite Er, <- Ab. reflexivity.
    - intros k0. unfold del. destruct (on_dec K hash pos l k0) as [(n' & P)|Q].
      + destruct (On k0 n' P) as (A1 & A2). rewrite A1, A2, Ed, sfind_sdel. reflexivity.
      + rewrite (Off k0 Q). destruct (keq k0 k) eqn:E; [|reflexivity]. exfalso. apply keq_ok in E. subst k0. exact (Q n (proj1 O)).
    - exact E1. }
  destruct d as [|e1 d1] eqn:Edd.
  - destruct (drop_leaf K V keq hash (time s) h pos l a I Lk C) as (h' & pos' & Eo & I' & X & Off & On). cbn zeta. rewrite Eo. rewrite Ld in On. exact (FIN h' pos' I' X Off On).
  - assert (G' : good (lpath pos l) (e1 :: d1)).
    { rewrite (proj1 O). destruct G as (_ & _ & G1 & G2). rewrite Ed in *. split; [rewrite <- Ed; discriminate|]. split; [apply sdel_nodup; exact ND|]. split.
      - intros e He. apply sdel_in in He; [|exact keq_ok]. exact (G1 e (proj1 He)).
      - intros L. specialize (G2 L). pose proof (sdel_length K V keq keq_ok k d0 ND) as SL. rewrite <- Ed in *. cbn in SL |- *. lia. }
    destruct (put_leaf K V keq hash (time s) h pos l (PLeaf a) (e1 :: d1) I Lk C ltac:(discriminate) G') as (h' & pos' & Eo & I' & X & Off & On). cbn zeta. rewrite Eo. rewrite Ld in On. exact (FIN h' pos' I' X Off On).
Qed.

Lemma rcount_ok r lv i c : pcs s t = RCount r lv i c -> okout s A pos (rcount K V s t r lv i c).
Proof.
  intros Ep. assert (Ni : pcs s t <> Idle) by (rewrite Ep; discriminate). pose proof (r_ti _ _ _ _ _ _ _ H t) as Ti. rewrite Ep in Ti. destruct Ti as (Ne & Fa). assert (Sc : scanning (pcs s t) = false) by (rewrite Ep; reflexivity).
  assert (Es : stt h pos (pcs s t) = AReady (ChtModel.RElem r)) by (rewrite Ep; reflexivity). unfold rcount. destruct lv as [|(p, b) rest]; [congruence|].
  destruct (i <? branch_mx).
  - destruct (Forall_inv Fa) as (_ & ((f & M) & Al) & _). cbn [fst snd] in M, Al. cbn [rd]. rewrite M, Al. destruct (f i) as (x, g). cbn [okout go].
    apply (sim_same_plain K V keq hash s A pos t H Ni); [exact Sc|reflexivity|split; [exact Ne|exact Fa]|rewrite Es; reflexivity|discriminate].
  - destruct (1 <? c); cbn [okout go]; (apply (sim_same_plain K V keq hash s A pos t H Ni); [exact Sc|reflexivity| |rewrite Es; reflexivity|discriminate]); [exact Logic.I|].
    split; [exact (Forall_inv Fa)|]. split; [exact (Forall_inv_tail Fa)|]. split; [cbn; lia|]. intros f Mf [|j] y Ey; discriminate Ey.
Qed.

Lemma freeze_ok ct p c acc : pcs s t = Freeze ct p c acc -> okout s A pos (freeze K V s t ct p c acc).
Proof.
  intros Ep. assert (Ni : pcs s t <> Idle) by (rewrite Ep; discriminate). pose proof (r_ti _ _ _ _ _ _ _ H t) as Ti. rewrite Ep in Ti. destruct Ti as (Pq & Oc & La & Fz). assert (Sc : scanning (pcs s t) = false) by (rewrite Ep; reflexivity).
  assert (Es : forall h0 pos0 p0 c0 acc0, stt h0 pos0 (Freeze ct p0 c0 acc0) = stt h pos (pcs s t) /\ stt h0 pos0 (CCas ct p0 c0 acc0) = stt h pos (pcs s t)) by (intros; rewrite Ep; destruct ct; split; reflexivity).
  unfold freeze. destruct (length acc <? branch_mx) eqn:Lb.
  - apply Nat.ltb_lt in Lb. unfold branch_mx in Lb. set (i := length acc) in *. pose proof Pq as (_ & ((f & M) & Al) & _). cbn [snd] in M, Al. cbn [rd]. rewrite M, Al. destruct (f i) as (x, g) eqn:F.
    pose proof (slot_child K V hash _ _ _ I pt c f i M Al Lb) as W. rewrite F in W. cbn [fst] in W.
    pose proof (r_pin _ _ _ _ _ _ _ H t (not_idle K V keq hash s A pos t H Ni)) as Lt.
    destruct (tag_ok K V keq hash (time s) h pos c f i x I M ltac:(rewrite F; reflexivity)) as (I' & X & EA & M').
    assert (Z : forall w, match x with PNull => w = 0 | PLeaf a => exists d, mem h a = BLeaf d /\ w = length d | PBr _ => w = 1 end -> okout s A pos (goh K V s (wr K V h (LSlot c i) (x, true)) t (Freeze ct p c (acc ++ [(x, w)])))).
    { intros w Hw. cbn [okout goh]. set (h' := wr K V h (LSlot c i) (x, true)) in *. pose proof (inv_time K V hash _ _ _ _ (Nat.le_succ_diag_r _) I') as I2.
      apply (sim_quiet K V keq keq_ok hash s A pos t H Ni h' pos _ I2 X); [|exact Sc|reflexivity|exact EA|apply Es].
      split; [exact (okp_ext K V _ _ _ _ _ pt X Lt _ Pq)|]. split; [exact (okct_ext K V _ _ _ _ _ pt X Lt _ Oc)|]. split; [rewrite app_length; cbn; fold i; lia|].
      intros f2 M2 j y Ey. destruct (Nat.lt_ge_cases j i) as [Lj|Gj].
      - rewrite nth_error_app1 in Ey by exact Lj. exact (frz_ext K V _ _ _ _ _ pt X c acc (proj1 (proj2 Pq)) Fz f2 M2 j y Ey).
      - rewrite nth_error_app2 in Ey by exact Gj. fold i in Ey. destruct (j - i) as [|q] eqn:Ej; [|destruct q; discriminate Ey]. injection Ey as <-. assert (j = i) by lia. subst j.
        rewrite M' in M2. injection M2 as <-. rewrite fup_same. split; [reflexivity|]. cbn [fst snd]. destruct x as [|a|a]; [exact Hw| |exact Hw]. destruct Hw as (d & Md & Hw). exists d. split; [exact (e_leaf _ _ _ _ _ _ _ X a d Md)|exact Hw]. }
    destruct x as [|a|a]; [apply (Z 0); reflexivity| |apply (Z 1); reflexivity]. destruct W as ((d & Md & _) & Al'). rewrite (rdleaf_ok K V h pt a d Md Al'). cbn [option_map]. apply Z. eauto.
  - apply Nat.ltb_ge in Lb. unfold branch_mx in Lb. cbn [okout go]. apply (sim_same_plain K V keq hash s A pos t H Ni); [exact Sc|reflexivity| |apply Es|discriminate].
    split; [exact Pq|]. split; [exact Oc|]. split; [lia|exact Fz].
Qed.

Lemma resume_facts h0 pos0 ct b p c acc : okct K V h0 pos0 pt ct -> TI h0 pos0 pt (resume K V ct b) /\ stt h0 pos0 (resume K V ct b) = stt h pos (CCas ct p c acc) /\ scanning (resume K V ct b) = false /\ resume K V ct b <> Idle.
Proof.
  intros Oc. destruct ct as [m e|k|r lv]; cbn [resume].
  - repeat split; try discriminate. 
  - repeat split; try discriminate. constructor.
  - destruct b; [repeat split; discriminate|]. destruct (loop_stt h0 pos0 r lv) as (E1 & E2 & E3). split; [exact (loop_ti h0 pos0 r lv Oc)|]. split; [exact E1|]. auto.
Qed.
Lemma ccas_ok ct p c acc : pcs s t = CCas ct p c acc -> okout s A pos (ccas K V s t ct p c acc).
Proof.
  intros Ep. assert (Ni : pcs s t <> Idle) by (rewrite Ep; discriminate). pose proof (r_ti _ _ _ _ _ _ _ H t) as Ti. rewrite Ep in Ti. destruct Ti as (Pq & Oc & La & Fz). assert (Sc : scanning (pcs s t) = false) by (rewrite Ep; reflexivity).
  destruct (okp_rd K V hash _ _ _ I pt (p, c) Pq) as (x & g & Rd & C & Lk). cbn [fst] in Rd, C, Lk. unfold ccas. destruct (cas_some s t p (PBr c) x g Rd) as (b & Cb). rewrite Cb.
  destruct b; cbn [negb].
  2: { destruct (resume_facts h pos ct false p c acc Oc) as (T1 & T2 & T3 & T4). cbn [okout go]. apply (sim_same_plain K V keq hash s A pos t H Ni); [exact Sc|exact T3|exact T1|rewrite Ep; exact T2|exact T4]. }
  destruct (cas_inv s t p _ true x g Rd Cb eq_refl) as (-> & ->). specialize (Lk eq_refl). pose proof Pq as (_ & ((f & M) & Al) & _). cbn [snd] in M, Al.
  pose proof (r_pin _ _ _ _ _ _ _ H t (not_idle K V keq hash s A pos t H Ni)) as Lt.
  assert (Hacc : forall i, i < 16 -> snd (f i) = true /\ nth_error acc i = Some (fst (f i), weight h (fst (f i)))).
  { intros i Li. destruct (nth_error acc i) as [y|] eqn:Ey; [|apply nth_error_None in Ey; lia]. destruct (Fz f M i y Ey) as (F & W). rewrite F. split; [reflexivity|]. cbn [fst]. f_equal. destruct y as (y1, y2). cbn [fst snd] in *. f_equal.
    destruct y1 as [|a|a]; [exact W| |exact W]. destruct W as (d & Md & W). cbn. rewrite Md. exact W. }
  destruct (compress_ok K V keq keq_ok hash (time s) h pos p c f acc I Lk C M La Hacc) as (h' & pos' & Eo & I' & X & EA).
  assert (E : okout s A pos (match out K V (fst (ccas_heap K V h p acc)) (S (time s)) (PBr c) with None => Bad | Some h' => goh K V s h' t (resume K V ct (snd (ccas_heap K V h p acc))) end)).
  { rewrite Eo. cbn [okout goh]. destruct (resume_facts h' pos' ct (snd (ccas_heap K V h p acc)) p c acc (okct_ext K V _ _ _ _ _ pt X Lt _ Oc)) as (T1 & T2 & T3 & T4).
    apply (sim_quiet K V keq keq_ok hash s A pos t H Ni h' pos' _ I' X); [exact T1|exact Sc|exact T3|exact EA|rewrite Ep; exact T2]. }
  unfold ccas_heap in E. destruct (decide acc); exact E.
Qed.
End Cases.
End Steps.
