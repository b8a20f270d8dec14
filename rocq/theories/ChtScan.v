(** The row index under every schedule: scans and the whole simulation. *)
From Coq Require Import List Arith NArith Bool Lia.
From Verif Require Import MtModel MtSpec MtProofs ChtModel ChtSpec ChtHeap ChtMap ChtRel ChtSim ChtSteps.
Import ListNotations.
Local Open Scope nat_scope.

Arguments BNone {K V}. Arguments BLeaf {K V}. Arguments BBr {K V}.
Arguments MkHeap {K V}. Arguments root {K V}. Arguments mem {K V}. Arguments next {K V}. Arguments rtd {K V}.
Arguments MkSt {K V}. Arguments hp {K V}. Arguments time {K V}. Arguments pinned {K V}. Arguments pin {K V}. Arguments len {K V}. Arguments pcs {K V}.
Arguments Idle {K V}. Arguments WLoad {K V}. Arguments WCas {K V}. Arguments GLoad {K V}. Arguments RLoad {K V}. Arguments RCas {K V}. Arguments RCount {K V}.
Arguments Freeze {K V}. Arguments CCas {K V}. Arguments Incr {K V}. Arguments Decr {K V}. Arguments SInit {K V}. Arguments SRun {K V}. Arguments LLoad {K V}. Arguments Ret {K V}.
Arguments NLeaf {K V}. Arguments NSplit {K V}. Arguments KWrite {K V}. Arguments KDel {K V}. Arguments KLoop {K V}.
Arguments ChtModel.OWrite {K V}. Arguments ChtModel.ODel {K V}. Arguments ChtModel.OGet {K V}. Arguments ChtModel.OScan {K V}. Arguments ChtModel.OLen {K V}.
Arguments ChtModel.RElem {K V}. Arguments ChtModel.RList {K V}. Arguments ChtModel.RLen {K V}.
Arguments PRet {K V}. Arguments PCas {K V}. Arguments PPanic {K V}.
Arguments EInv {K V}. Arguments ERet {K V}. Arguments Dis {K V}. Arguments Bad {K V}. Arguments Next {K V}.
Arguments MkA {K V}. Arguments am {K V}. Arguments ath {K V}. Arguments AIdle {K V}. Arguments APending {K V}. Arguments AScan {K V}. Arguments AReady {K V}.
Arguments watch {K V}. Arguments asteps {K V}. Arguments alive {K V}. Arguments leafdata {K V}. Arguments weight {K V}.

Section Scan.
Variables K V : Type.
Variable keq : K -> K -> bool.
Hypothesis keq_ok : forall a b, keq a b = true <-> a = b.
Variable hash : K -> N.
Notation elem := (K * V)%type.
Notation heap := (heap K V).
Notation chunk_at := (chunk_at K hash).
Notation sfind := (sfind K V keq).
Notation prefix := (prefix K hash).
Notation content := (content K V).
Notation linked := (linked K V).
Notation good := (good K V hash).
Notation valid := (valid K V hash).
Notation Inv := (Inv K V hash).
Notation abs := (abs K V keq hash).
Notation ext := (ext K V).
Notation pc := (pc K V).
Notation mstep := (mstep K V keq).
Notation athread := (athread K V).
Notation amap := (amap K V).

Notation TI := (TI K V keq hash).
Notation Rel := (Rel K V keq hash).
Notation stt := (stt K V keq hash).
Notation scanning := (scanning K V).
Notation okl := (okl K V hash).
Notation okp := (okp K V).
Notation okb := (okb K V).
Notation astep := (astep K V keq).
Notation asteps := (@ChtSpec.asteps K V keq).
Notation ast := (ast K V).
Notation st := (st K V).
Notation nul := (nul K V).
Notation fwl := (fwl K V keq hash).

Notation R := (R K V keq hash).
Notation okout := (okout K V keq hash).
Notation pre := (pre K hash).
Notation rest_ok := (rest_ok K V).
Notation doner := (doner K hash).
Notation done := (done K V hash).
Notation top_ok := (top_ok K V hash).

Lemma pre_nil k : pre k [].
Proof. reflexivity. Qed.
Lemma pre_snoc k p i : pre k (p ++ [i]) <-> pre k p /\ chunk_at k (length p) = i.
Proof.
  unfold ChtRel.pre. rewrite app_length. cbn [length]. rewrite Nat.add_1_r, prefix_S. split.
  - intros E. apply app_inj_tail in E. destruct E as (E1 & E2). split; [exact E1|symmetry; exact E2].
  - intros (E1 & E2). rewrite <- E1, E2. reflexivity.
Qed.
Section Stack.
Variables (h : heap) (pos : posn) (tz : nat).
Lemma rest_len : forall r p, rest_ok h pos tz p r -> length p = length r.
Proof.
  induction r as [|(x, j) r IH]; intros p; cbn [ChtRel.rest_ok]; [intros ->; reflexivity|]. destruct x as [|a|b]; try tauto. destruct j as [|j]; [tauto|]. intros (_ & -> & _ & R). rewrite app_length, (IH _ R). cbn. lia.
Qed.
Lemma doner_not k : forall r p, rest_ok h pos tz p r -> pre k p -> ~ doner pos k r.
Proof.
  induction r as [|(x, j) r IH]; intros p; cbn [ChtRel.rest_ok ChtRel.doner]; [tauto|]. destruct x as [|a|b]; try tauto. destruct j as [|j]; [tauto|]. intros (_ & -> & _ & R) P [(_ & L)|D]; apply pre_snoc in P; destruct P as (P & C); [lia|]. exact (IH _ R P D).
Qed.
Lemma pop_done k r p : rest_ok h pos tz p r -> (done h pos k r <-> doner pos k r \/ pre k p).
Proof.
  destruct r as [|(x, j) r]; cbn [ChtRel.rest_ok ChtRel.doner ChtRel.done]; [intros ->; split; [intros _; right; apply pre_nil|tauto]|]. destruct x as [|a|b]; try tauto. destruct j as [|j]; [tauto|]. intros (_ & -> & _ & R). rewrite pre_snoc. split.
  - intros [(P & L)|D]; [|tauto]. assert (chunk_at k (length (pos b)) < j \/ chunk_at k (length (pos b)) = j) as [L'|L'] by lia; tauto.
  - intros [[(P & L)|D]|(P & L)]; [left; split; [exact P|lia]|tauto|left; split; [exact P|lia]].
Qed.
Lemma pop_top se al r p : rest_ok h pos tz p r -> match r with [] => True | (x, i) :: r => exists p, rest_ok h pos tz p r /\ top_ok h pos tz se al p x i end.
Proof.
  destruct r as [|(x, j) r]; cbn [ChtRel.rest_ok]; [exact (fun _ => Logic.I)|]. destruct x as [|a|b]; try tauto. destruct j as [|j]; [tauto|]. intros (L & _ & B & R). exists (pos b). split; [exact R|]. split; [exact B|]. split; [reflexivity|lia].
Qed.
End Stack.

Section Cases.
Variables (s : st) (A : ast) (pos : posn) (t : nat).
Hypothesis H : R s A pos.
Let I := r_inv _ _ _ _ _ _ _ H.
Notation h := (hp s).
Notation pt := (pin s t).

Lemma sim_thread A' p' n : In t (pinned s) -> (forall k, am A' k = am A k) -> (forall u, u <> t -> Rel h pos (pin s u) (S (time s)) (am A') (pcs s u) (ath A' u)) ->
  TI h pos pt p' -> Rel h pos pt (S (time s)) (am A') p' (ath A' t) -> R (tick K V (set_len K V (set_pc K V s h t p') n)) A' pos.
Proof.
  intros Pt EM Ro Ti Re. constructor; cbn.
  - exact (inv_time K V hash _ _ _ _ (Nat.le_succ_diag_r _) I).
  - intros u Hu. pose proof (r_pin _ _ _ _ _ _ _ H u Hu). lia.
  - intros u Hu. rewrite fup_other; [exact (r_idle _ _ _ _ _ _ _ H u Hu)|]. intros ->. exact (Hu Pt).
  - intros u. destruct (Nat.eq_dec u t) as [->|N]; [rewrite fup_same; exact Ti|rewrite fup_other by exact N; exact (r_ti _ _ _ _ _ _ _ H u)].
  - intros k. rewrite EM. exact (r_map _ _ _ _ _ _ _ H k).
  - intros u. destruct (Nat.eq_dec u t) as [->|N]; [rewrite fup_same; exact Re|rewrite fup_other by exact N; exact (Ro u N)].
Qed.
(** the thread alone changes *)
Lemma sim_self a p' n e : In t (pinned s) -> astep A e (MkA (am A) (fup (ath A) t a)) -> TI h pos pt p' -> Rel h pos pt (S (time s)) (am A) p' a ->
  exists A' pos', asteps A e A' /\ R (tick K V (set_len K V (set_pc K V s h t p') n)) A' pos' /\ ext (time s) h pos h pos'.
Proof.
  intros Pt St Ti Re. exists (MkA (am A) (fup (ath A) t a)), pos. split; [apply asteps_one; exact St|]. split; [|apply ext_refl]. apply sim_thread; [exact Pt|reflexivity| |exact Ti|].
  - intros u N. cbn. rewrite fup_other by exact N. exact (rel_time K V keq hash _ _ _ _ _ _ _ _ (Nat.le_succ_diag_r _) (r_rel _ _ _ _ _ _ _ H u)).
  - cbn. rewrite fup_same. exact Re.
Qed.
Lemma eta_a : A = MkA (am A) (ath A).
Proof. destruct A; reflexivity. Qed.

Lemma scan_go sk acc se al : pcs s t <> Idle -> ath A t = AScan se al -> base K V (am A) se al -> scanok K V keq hash h pos pt (S (time s)) se al sk acc -> okout s A pos (go K V s t (SRun sk acc)).
Proof.
  intros Ni Ea B Sk. cbn [ChtSteps.okout go]. exists A, pos. split; [apply as_refl|]. split; [|apply ext_refl]. apply (sim_same K V keq hash s A pos t H Ni (SRun sk acc) (len s)); [exact Logic.I| |discriminate]. exists se, al. auto.
Qed.

(** what the scan finds at a place, when it looks *)
Lemma top_new tz se al p x : base K V (am A) se al ->
  match x with
  | PNull => forall k, pre k p -> abs h k = None \/ ~ al k
  | PLeaf a => exists d, mem h a = BLeaf d /\ alive h tz a = true /\ good p d /\ ((forall k, pre k p -> abs h k = sfind k d) \/ forall k, pre k p -> (forall e, In e d -> fst e = k -> se e) /\ (sfind k d = None -> ~ al k))
  | PBr a => okb h tz a /\ pos a = p
  end -> top_ok h pos tz se al p x 0.
Proof.
  intros (B1 & B2). destruct x as [|a|a]; cbn [ChtRel.top_ok].
  - intros Q k P Al. destruct (Q k P) as [E|E]; [|exact (E Al)]. apply (B2 k Al). rewrite (r_map _ _ _ _ _ _ _ H). exact E.
  - intros (d & M & Al & G & Q). exists d. split; [exact M|]. split; [exact Al|]. split; [exact G|]. split; [lia|]. destruct Q as [Q|Q].
    + split.
      * intros e He. apply B1. rewrite (r_map _ _ _ _ _ _ _ H), (Q _ (good_pre K V hash p d e G He)). apply sfind_in; [exact keq_ok|apply G|exact He].
      * intros k P Ak. pose proof (B2 k Ak) as N. rewrite (r_map _ _ _ _ _ _ _ H), (Q k P) in N. destruct (sfind k d) as [e|] eqn:E; [|congruence]. apply sfind_some in E; [|exact keq_ok]. destruct E as (E & <-). apply in_map. exact E.
    + split.
      * intros e He. exact (proj1 (Q _ (good_pre K V hash p d e G He)) e He eq_refl).
      * intros k P Ak. destruct (sfind k d) as [e|] eqn:E; [|exfalso; exact (proj2 (Q k P) E Ak)]. apply sfind_some in E; [|exact keq_ok]. destruct E as (E & <-). apply in_map. exact E.
  - intros (B & P). split; [exact B|]. split; [exact P|lia].
Qed.

Lemma sinit_ok : pcs s t = SInit -> okout s A pos (go K V s t (SRun [(root h, 0)] [])).
Proof.
  intros Ep. assert (Ni : pcs s t <> Idle) by (rewrite Ep; discriminate). pose proof (r_rel _ _ _ _ _ _ _ H t) as Re. rewrite Ep in Re. destruct Re as (se & al & Ea & B). apply (scan_go _ _ se al Ni Ea B).
  pose proof (r_pin _ _ _ _ _ _ _ H t (not_idle K V keq hash s A pos t H Ni)) as Lt.
  exists (time s). split; [exact Lt|]. split; [lia|]. split.
  { intros b f u i k _ Ru Lu. pose proof (v_time _ _ _ _ _ _ I b u Ru). lia. }
  split; [|split; [constructor|split; [intros e []|]]].
  2: { intros k Al. cbn [ChtRel.done ChtRel.doner]. destruct (root h); cbn; intros D; exfalso; [exact D|tauto|destruct D as [(_ & D)|D]; [lia|exact D]]. }
  exists []. split; [reflexivity|]. apply top_new; [exact B|]. pose proof (v_root _ _ _ _ _ _ I) as W.
  assert (Wk : forall k, abs h k = walk K V keq hash (mem h) 16 (root h) 0 k) by reflexivity.
  assert (ALV : forall a, rtd h a = None -> alive h (time s) a = true) by (intros a E; unfold alive; rewrite E; reflexivity).
  destruct (root h) as [|a|a].
  - intros k _. left. rewrite Wk. apply walk_null.
  - destruct W as ((d & M & G) & La). cbn in La. exists d. split; [exact M|]. split; [exact (ALV a La)|]. split; [exact G|]. left. intros k _. rewrite Wk. apply walk_leaf. exact M.
  - destruct W as ((f & M) & P & La). cbn in La. split; [|exact P]. split; [eauto|exact (ALV a La)].
Qed.

Lemma srun_ok sk acc : pcs s t = SRun sk acc -> okout s A pos (srun K V s t sk acc).
Proof.
  intros Ep. assert (Ni : pcs s t <> Idle) by (rewrite Ep; discriminate). pose proof (r_rel _ _ _ _ _ _ _ H t) as Re. rewrite Ep in Re. destruct Re as (se & al & Ea & B & tz & L1 & L2 & G & Tp & ND & H1 & H2).
  pose proof (not_idle K V keq hash s A pos t H Ni) as Pt.
  destruct sk as [|(x, i) r].
  { cbn [srun ChtSteps.okout go]. apply (sim_self (AReady (ChtModel.RList (rev acc))) (Ret (ChtModel.RList (rev acc))) (len s) [] Pt); [|exact Logic.I|reflexivity].
    rewrite eta_a at 1. apply a_scan with (se := se) (al := al); [exact Ea|rewrite map_rev; apply NoDup_rev; exact ND| |].
    - intros e He. apply in_rev in He. exact (proj1 (H1 e He)).
    - intros k Al. rewrite map_rev. apply in_rev. rewrite rev_involutive. exact (H2 k Al Logic.I). }
  destruct Tp as (p & Ro & To).
  assert (POP : (forall k, done h pos k ((x, i) :: r) -> doner pos k r \/ pre k p) -> (forall k, doner pos k r -> done h pos k ((x, i) :: r)) -> (forall k, pre k p -> al k -> done h pos k ((x, i) :: r)) -> okout s A pos (go K V s t (SRun r acc))).
  { intros D1 D2 D3. apply (scan_go _ _ se al Ni Ea B). exists tz. split; [exact L1|]. split; [lia|]. split; [exact G|]. split; [exact (pop_top h pos tz se al r p Ro)|]. split; [exact ND|]. split.
    - intros e He. destruct (H1 e He) as (S1 & S2). split; [exact S1|]. apply (pop_done h pos tz _ r p Ro). exact (D1 _ S2).
    - intros k Al D. apply (pop_done h pos tz k r p Ro) in D. apply (H2 k Al). destruct D as [D|D]; [exact (D2 k D)|exact (D3 k D Al)]. }
  assert (ATZ : forall a, alive h tz a = true -> alive h pt a = true).
  { intros a. unfold alive. destruct (rtd h a) as [u|]; [|reflexivity]. intros Q. apply Nat.ltb_lt in Q. apply Nat.ltb_lt. lia. }
  destruct x as [|a|a]; cbn [srun].
  - apply POP; cbn [ChtRel.done]; [tauto|tauto|]. intros k P Al. exfalso. exact (To k P Al).
  - destruct To as (d & M & Al & Gd & Li & Se & Aw). rewrite (rdleaf_ok K V h pt a d M (ATZ a Al)). assert (Ld : leafdata h (PLeaf a) = d) by (cbn; rewrite M; reflexivity).
    destruct (nth_error d i) as [e|] eqn:Ne.
    + apply (scan_go _ _ se al Ni Ea B). exists tz. split; [exact L1|]. split; [lia|]. split; [exact G|]. assert (Lt : i < length d) by (apply nth_error_Some; congruence). pose proof (nth_error_In _ _ Ne) as In_e.
      assert (FS : forall k, In k (map fst (firstn (S i) d)) <-> In k (map fst (firstn i d)) \/ k = fst e).
      { intros k. destruct (nth_error_split _ _ Ne) as (d1 & d2 & -> & <-). rewrite !firstn_app, firstn_all, Nat.sub_diag, firstn_all2 by lia. replace (S (length d1) - length d1) with 1 by lia. cbn [firstn]. rewrite app_nil_r, map_app, in_app_iff. cbn. split; [intros [Q|[Q|[]]]; auto|intros [Q|Q]; auto]. }
      split; [exists p; split; [exact Ro|]; exists d; auto 10|]. split; [|split].
      * cbn [map]. constructor; [|exact ND]. intros Q. apply in_map_iff in Q. destruct Q as (e2 & E2 & In2). destruct (H1 e2 In2) as (_ & D). rewrite E2 in D. cbn [ChtRel.done] in D. rewrite Ld in D. destruct D as [D|D].
        -- destruct Gd as (_ & NDd & _). destruct (nth_error_split _ _ Ne) as (d1 & d2 & -> & <-). rewrite firstn_app, firstn_all, Nat.sub_diag in D. cbn [firstn] in D. rewrite app_nil_r in D. rewrite map_app in NDd. cbn [map] in NDd. apply NoDup_remove_2 in NDd. apply NDd. apply in_or_app. auto.
        -- exact (doner_not h pos tz (fst e) r p Ro (good_pre K V hash p d e Gd In_e) D).
      * intros e2 [<-|In2].
        -- split; [exact (Se e In_e)|]. cbn [ChtRel.done]. rewrite Ld. left. apply FS. auto.
        -- destruct (H1 e2 In2) as (S1 & D). split; [exact S1|]. cbn [ChtRel.done] in *. rewrite Ld in *. destruct D as [D|D]; [left; apply FS; auto|auto].
      * intros k Alk D. cbn [ChtRel.done] in D. rewrite Ld in D. cbn [map]. destruct D as [D|D].
        -- apply FS in D. destruct D as [D| ->]; [|left; reflexivity]. right. apply (H2 k Alk). cbn [ChtRel.done]. rewrite Ld. auto.
        -- right. apply (H2 k Alk). cbn [ChtRel.done]. auto.
    + apply nth_error_None in Ne. assert (Fi : firstn i d = d) by (apply firstn_all2; lia). apply POP; cbn [ChtRel.done]; rewrite Ld, Fi; [|tauto|].
      * intros k [D|D]; [right|auto]. apply in_map_iff in D. destruct D as (e & <- & He). exact (good_pre K V hash p d e Gd He).
      * intros k P Alk. left. exact (Aw k P Alk).
  - destruct To as (Bo & Pa & Li). destruct (i <? max_tree_height) eqn:Lb.
    2: { apply Nat.ltb_ge in Lb. unfold max_tree_height in Lb. apply POP; cbn [ChtRel.done]; rewrite Pa; [tauto|tauto|]. intros k P _. left. split; [exact P|]. pose proof (chunk_at_lt K hash k (length p)). lia. }
    apply Nat.ltb_lt in Lb. unfold max_tree_height in Lb. destruct Bo as ((f & M) & Al). cbn [rd]. rewrite M, (ATZ a Al). destruct (f i) as (x, g) eqn:F.
    pose proof (rest_len h pos tz r p Ro) as Lr. pose proof (proj1 (v_br _ _ _ _ _ _ I a f M)) as L16. rewrite Pa in L16.
    assert (E : length ((PBr a, i) :: r) <? S branch_mx = true) by (apply Nat.ltb_lt; unfold branch_mx; cbn [length]; lia). rewrite E.
    apply (scan_go _ _ se al Ni Ea B). exists tz. split; [exact L1|]. split; [lia|]. split; [exact G|].
    assert (DN : forall k, done h pos k ((x, 0) :: (PBr a, S i) :: r) <-> done h pos k ((PBr a, i) :: r)).
    { intros k. destruct x as [|b|b]; cbn [ChtRel.done ChtRel.doner firstn map In]; [tauto|tauto|]. split; [intros [(_ & Q)|Q]; [lia|exact Q]|auto]. }
    split; [|split; [exact ND|split]].
    + exists (pos a ++ [i]). split; [cbn [ChtRel.rest_ok]; split; [exact Lb|]; split; [reflexivity|]; split; [split; [eauto|exact Al]|rewrite Pa; exact Ro]|].
      apply top_new; [exact B|]. pose proof (slot_child K V hash _ _ _ I tz a f i M Al Lb) as W. rewrite F in W. cbn [fst] in W.
      assert (Q : (rtd h a = None) \/ exists u, rtd h a = Some u /\ tz < u). { unfold alive in Al. destruct (rtd h a) as [u|]; [right; exists u; split; [reflexivity|apply Nat.ltb_lt; exact Al]|left; reflexivity]. }
      destruct x as [|b|b].
      * intros k P. destruct Q as [Q|(u & Q & Lu)].
        -- left. pose proof (slot_map K V keq hash _ _ _ I a f i k M Q Lb P) as SM. rewrite F in SM. exact SM.
        -- right. pose proof (G a f u i k M Q Lu Lb P) as SM. rewrite F in SM. exact SM.
      * destruct W as ((d & Md & Gd) & Alb). exists d. split; [exact Md|]. split; [exact Alb|]. split; [exact Gd|]. destruct Q as [Q|(u & Q & Lu)].
        -- left. intros k P. pose proof (slot_map K V keq hash _ _ _ I a f i k M Q Lb P) as SM. rewrite F in SM. exact (SM d Md).
        -- right. intros k P. pose proof (G a f u i k M Q Lu Lb P) as SM. rewrite F in SM. exact (SM d Md).
      * destruct W as (W1 & W2 & _). auto.
    + intros e He. destruct (H1 e He) as (S1 & D). split; [exact S1|]. apply DN. exact D.
    + intros k Alk D. apply DN in D. exact (H2 k Alk D).
Qed.

Lemma plain_self a p' n e : pcs s t <> Idle -> astep A e (MkA (am A) (fup (ath A) t a)) -> TI h pos pt p' -> scanning p' = false -> a = stt h pos p' ->
  exists A' pos', asteps A e A' /\ R (tick K V (set_len K V (set_pc K V s h t p') n)) A' pos' /\ ext (time s) h pos h pos'.
Proof.
  intros Ni St Ti Sc Ea. apply (sim_self a p' n e (not_idle K V keq hash s A pos t H Ni) St Ti). apply rel_plain; assumption.
Qed.
Lemma same_self p' n : pcs s t <> Idle -> scanning (pcs s t) = false -> scanning p' = false -> TI h pos pt p' -> p' <> Idle -> stt h pos p' = stt h pos (pcs s t) ->
  okout s A pos (Next (set_len K V (set_pc K V s h t p') n) []).
Proof.
  intros Ni Sc Sc' Ti Ni' E. cbn [ChtSteps.okout]. exists A, pos. split; [apply as_refl|]. split; [|apply ext_refl]. apply (sim_same K V keq hash s A pos t H Ni p' n Ti); [|exact Ni']. apply rel_plain; [exact Sc'|]. rewrite E. pose proof (r_rel _ _ _ _ _ _ _ H t) as Re. apply rel_plain in Re; [exact Re|exact Sc].
Qed.

Lemma run1_ok : okout s A pos (run1 K V keq hash s t).
Proof.
  unfold run1. destruct (pcs s t) as [|m e l n par|m e l n par old w|k l hh|k l n lv|k l n lv a d r|r lv i c|ct p c acc|ct p c acc| |r| |sk acc| |r] eqn:Ep.
  - exact Logic.I.
  - exact (wload_ok K V keq keq_ok hash s A pos t H m e l n par Ep).
  - exact (wcas_ok K V keq keq_ok hash s A pos t H m e l n par old w Ep).
  - exact (gload_ok K V keq keq_ok hash s A pos t H k l hh Ep).
  - exact (rload_ok K V keq keq_ok hash s A pos t H k l n lv Ep).
  - exact (rcas_ok K V keq keq_ok hash s A pos t H k l n lv a d r Ep).
  - exact (rcount_ok K V keq hash s A pos t H r lv i c Ep).
  - exact (freeze_ok K V keq keq_ok hash s A pos t H ct p c acc Ep).
  - exact (ccas_ok K V keq keq_ok hash s A pos t H ct p c acc Ep).
  - apply same_self; rewrite ?Ep; try reflexivity; try discriminate. 
  - apply same_self; rewrite ?Ep; try reflexivity; try discriminate. 
  - exact (sinit_ok Ep).
  - exact (srun_ok sk acc Ep).
  - cbn [ChtSteps.okout go]. apply (plain_self (AReady (ChtModel.RLen (len s))) (Ret (ChtModel.RLen (len s))) (len s) []); [rewrite Ep; discriminate| |exact Logic.I|reflexivity|reflexivity].
    rewrite eta_a at 1. apply a_len. pose proof (r_rel _ _ _ _ _ _ _ H t) as Re. rewrite Ep in Re. exact Re.
  - cbn [ChtSteps.okout]. apply (plain_self AIdle Idle (len s) [ERet t r]); [rewrite Ep; discriminate| |exact Logic.I|reflexivity|reflexivity].
    rewrite eta_a at 1. apply a_ret. pose proof (r_rel _ _ _ _ _ _ _ H t) as Re. rewrite Ep in Re. exact Re.
Qed.

Lemma inb_iff u l : inb u l = true <-> In u l.
Proof. unfold inb. rewrite existsb_exists. split; [intros (x & Hx & E); apply Nat.eqb_eq in E; subst x; exact Hx|intros Hu; exists u; split; [exact Hu|apply Nat.eqb_refl]]. Qed.

Lemma call_ok o : pcs s t = Idle -> In t (pinned s) -> okout s A pos (Next (set_pc K V s h t (start K V hash o)) [EInv t o]).
Proof.
  intros Ep Pt. cbn [ChtSteps.okout]. apply (sim_self (acall K V (am A) o) (start K V hash o) (len s) [EInv t o] Pt).
  - rewrite eta_a at 1. apply a_call. pose proof (r_rel _ _ _ _ _ _ _ H t) as Re. rewrite Ep in Re. exact Re.
  - destruct o; cbn [start ChtRel.TI]; try exact Logic.I.
    + split; [split; [reflexivity|exact Logic.I]|reflexivity].
    + split; [split; [reflexivity|exact Logic.I]|]. split; [constructor|]. split; reflexivity.
    + exists 0. split; [split; [reflexivity|exact Logic.I]|]. rewrite N.shiftr_0_r. reflexivity.
  - destruct o; cbn [start]; try reflexivity. exists (fun e => am A (fst e) = Some e), (fun k => am A k <> None). split; [reflexivity|]. split; auto.
Qed.

Theorem step_ok a : okout s A pos (step K V keq hash s t a).
Proof.
  destruct a as [| |o|]; cbn [step]; [| | |exact run1_ok]; destruct (pcs s t) eqn:Ep; try exact Logic.I; destruct (inb t (pinned s)) eqn:Pi; try exact Logic.I.
  - exists A, pos. split; [apply as_refl|]. split; [|apply ext_refl]. assert (NI : ~ In t (pinned s)) by (rewrite <- inb_iff; congruence). constructor; cbn.
    + exact (inv_time K V hash _ _ _ _ (Nat.le_succ_diag_r _) I).
    + intros u [<-|Hu]; [rewrite fup_same; lia|]. assert (u <> t) by congruence. rewrite fup_other by assumption. pose proof (r_pin _ _ _ _ _ _ _ H u Hu). lia.
    + intros u Hu. apply (r_idle _ _ _ _ _ _ _ H). tauto.
    + intros u. destruct (Nat.eq_dec u t) as [->|N]; [rewrite Ep; exact Logic.I|rewrite fup_other by exact N; exact (r_ti _ _ _ _ _ _ _ H u)].
    + exact (r_map _ _ _ _ _ _ _ H).
    + intros u. pose proof (rel_time K V keq hash _ _ _ _ _ _ _ _ (Nat.le_succ_diag_r _) (r_rel _ _ _ _ _ _ _ H u)) as Q. destruct (Nat.eq_dec u t) as [->|N]; [rewrite Ep in Q |- *; exact Q|rewrite fup_other by exact N; exact Q].
  - exists A, pos. split; [apply as_refl|]. split; [|apply ext_refl]. constructor; cbn.
    + exact (inv_time K V hash _ _ _ _ (Nat.le_succ_diag_r _) I).
    + intros u Hu. apply in_remove in Hu. pose proof (r_pin _ _ _ _ _ _ _ H u (proj1 Hu)). lia.
    + intros u Hu. destruct (Nat.eq_dec u t) as [->|N]; [exact Ep|]. apply (r_idle _ _ _ _ _ _ _ H). intros Q. apply Hu. apply in_in_remove; assumption.
    + exact (r_ti _ _ _ _ _ _ _ H).
    + exact (r_map _ _ _ _ _ _ _ H).
    + intros u. exact (rel_time K V keq hash _ _ _ _ _ _ _ _ (Nat.le_succ_diag_r _) (r_rel _ _ _ _ _ _ _ H u)).
  - exact (call_ok o Ep (proj1 (inb_iff _ _) Pi)).
Qed.
End Cases.

Lemma R_init pos : R (init K V) (ainit K V) pos.
Proof.
  constructor; cbn.
  - apply inv_init.
  - intros t [].
  - reflexivity.
  - intros t. exact Logic.I.
  - reflexivity.
  - reflexivity.
Qed.

Theorem run_ok : forall sch s A pos, R s A pos ->
  match run K V keq hash s sch with Dis => True | Bad => False | Next s' e => exists A' pos', asteps A e A' /\ R s' A' pos' end.
Proof.
  induction sch as [|(t, a) sch IH]; intros s A pos H; cbn [run]; [exists A, pos; split; [apply as_refl|exact H]|].
  pose proof (step_ok s A pos t H a) as S1. destruct (step K V keq hash s t a) as [| |s1 e1]; [exact Logic.I|exact S1|]. destruct S1 as (A1 & pos1 & St & R1 & _). specialize (IH _ _ _ R1). destruct (run K V keq hash (tick K V s1) sch) as [| |s2 e2]; [exact Logic.I|exact IH|].
  destruct IH as (A2 & pos2 & St2 & R2). exists A2, pos2. split; [exact (asteps_app K V keq _ _ _ _ _ St St2)|exact R2].
Qed.
End Scan.
