(** The row index under every schedule: the size, the memory and the steps of a lookup. *)
From Coq Require Import List Arith NArith ZArith Bool Lia.
From Verif Require Import MtModel MtSpec MtProofs ChtModel ChtSpec ChtHeap ChtMap ChtRel ChtSim ChtSteps ChtScan.
Import ListNotations.
Local Open Scope nat_scope.

Arguments BNone {K V}. Arguments BLeaf {K V}. Arguments BBr {K V}.
Arguments MkHeap {K V}. Arguments root {K V}. Arguments mem {K V}. Arguments next {K V}. Arguments rtd {K V}.
Arguments MkSt {K V}. Arguments hp {K V}. Arguments time {K V}. Arguments pinned {K V}. Arguments pin {K V}. Arguments len {K V}. Arguments pcs {K V}.
Arguments Idle {K V}. Arguments WLoad {K V}. Arguments WCas {K V}. Arguments GLoad {K V}. Arguments RLoad {K V}. Arguments RCas {K V}. Arguments RCount {K V}.
Arguments Freeze {K V}. Arguments CCas {K V}. Arguments Incr {K V}. Arguments Decr {K V}. Arguments SInit {K V}. Arguments SRun {K V}. Arguments LLoad {K V}. Arguments Ret {K V}.
Arguments NLeaf {K V}. Arguments NSplit {K V}. Arguments KWrite {K V}. Arguments KDel {K V}. Arguments KLoop {K V}.
Arguments ChtModel.OWrite {K V}. Arguments ChtModel.ODel {K V}. Arguments ChtModel.OGet {K V}. Arguments ChtModel.OScan {K V}. Arguments ChtModel.OLen {K V}.
Arguments ChtModel.RElem {K V}. Arguments ChtModel.RList {K V}. Arguments ChtModel.RLen {K V}.
Arguments PRet {K V}. Arguments PCas {K V}. Arguments PPanic {K V}.
Arguments EInv {K V}. Arguments ERet {K V}. Arguments Dis {K V}. Arguments Bad {K V}. Arguments Next {K V}.
Arguments MkA {K V}. Arguments am {K V}. Arguments ath {K V}. Arguments AIdle {K V}. Arguments APending {K V}. Arguments AScan {K V}. Arguments AReady {K V}.
Arguments watch {K V}. Arguments asteps {K V}. Arguments alive {K V}. Arguments leafdata {K V}. Arguments weight {K V}.

Section Count.
Variables K V : Type.
Variable keq : K -> K -> bool.
Hypothesis keq_ok : forall a b, keq a b = true <-> a = b.
Variable hash : K -> N.
Notation elem := (K * V)%type.
Notation heap := (heap K V).
Notation chunk_at := (chunk_at K hash).
Notation sfind := (sfind K V keq).
Notation prefix := (prefix K hash).
Notation content := (content K V).
Notation linked := (linked K V).
Notation good := (good K V hash).
Notation valid := (valid K V hash).
Notation Inv := (Inv K V hash).
Notation abs := (abs K V keq hash).
Notation ext := (ext K V).
Notation pc := (pc K V).
Notation mstep := (mstep K V keq).
Notation athread := (athread K V).
Notation amap := (amap K V).

Notation TI := (TI K V keq hash).
Notation Rel := (Rel K V keq hash).
Notation stt := (stt K V keq hash).
Notation scanning := (scanning K V).
Notation okl := (okl K V hash).
Notation okp := (okp K V).
Notation okb := (okb K V).
Notation astep := (astep K V keq).
Notation asteps := (@ChtSpec.asteps K V keq).
Notation ast := (ast K V).
Notation st := (st K V).
Notation nul := (nul K V).
Notation fwl := (fwl K V keq hash).

Notation R := (R K V keq hash).
Notation okout := (okout K V keq hash).
Notation run := (run K V keq hash).
Notation step := (step K V keq hash).

(** ** Numbers of keys *)
Definition size (m : amap) (n : nat) : Prop := exists l, NoDup l /\ length l = n /\ forall k, In k l <-> m k <> None.
Lemma size_ext m m' n : (forall k, m' k = m k) -> size m n -> size m' n.
Proof. intros E (l & N & L & Q). exists l. split; [exact N|]. split; [exact L|]. intros k. rewrite E. apply Q. Qed.
Lemma size_fun m n n' : size m n -> size m n' -> n = n'.
Proof.
  intros (l & N & <- & Q) (l' & N' & <- & Q'). apply Nat.le_antisymm; apply NoDup_incl_length; try assumption; intros k Hk; [apply Q'; apply Q; exact Hk|apply Q; apply Q'; exact Hk].
Qed.
Lemma keq_false a b : keq a b = false <-> a <> b.
Proof. rewrite <- keq_ok. destruct (keq a b); split; congruence. Qed.
Lemma size_put m e n : size m n -> size (put K V keq e m) (match m (fst e) with None => S n | Some _ => n end).
Proof.
  intros (l & N & L & Q). destruct (m (fst e)) as [x|] eqn:E.
  - exists l. split; [exact N|]. split; [exact L|]. intros k. unfold put. rewrite Q. destruct (keq k (fst e)) eqn:C; [|reflexivity]. apply keq_ok in C. subst k. rewrite E. split; discriminate.
  - exists (fst e :: l). split; [constructor; [rewrite Q; congruence|exact N]|]. split; [cbn; congruence|]. intros k. unfold put. cbn [In]. rewrite Q. destruct (keq k (fst e)) eqn:C.
    + apply keq_ok in C. split; [discriminate|auto].
    + apply keq_false in C. split; [intros [F|F]; [congruence|exact F]|auto].
Qed.
Lemma size_del m k n : size m n -> exists n', size (del K V keq k m) n' /\ n = match m k with None => n' | Some _ => S n' end.
Proof.
  intros (l & N & <- & Q). assert (S1 : size (del K V keq k m) (length (filter (fun x => negb (keq x k)) l))).
  { exists (filter (fun x => negb (keq x k)) l). split; [apply NoDup_filter; exact N|]. split; [reflexivity|]. intros x. rewrite filter_In, Q. unfold del. destruct (keq x k); cbn; split; intros; try tauto; try (destruct H; congruence). }
  exists (length (filter (fun x => negb (keq x k)) l)). split; [exact S1|]. destruct (m k) as [e|] eqn:E.
  - assert (Hk : In k l) by (apply Q; congruence). destruct (in_split _ _ Hk) as (l1 & l2 & ->). apply NoDup_remove in N. destruct N as (_ & N). rewrite filter_app. cbn [filter]. rewrite (proj2 (keq_ok k k) eq_refl). cbn [negb].
    assert (F : forall l0, (forall x, In x l0 -> x <> k) -> filter (fun x => negb (keq x k)) l0 = l0). { induction l0 as [|x l0 IH]; [reflexivity|]. intros Hx. cbn. rewrite (proj2 (keq_false x k)) by (apply Hx; left; reflexivity). cbn. rewrite IH by (intros y Hy; apply Hx; right; exact Hy). reflexivity. }
    rewrite !F; [rewrite !app_length; cbn; lia| |]; intros x Hx ->; apply N; apply in_or_app; auto.
  - assert (F : forall l0, (forall x, In x l0 -> x <> k) -> filter (fun x => negb (keq x k)) l0 = l0). { induction l0 as [|x l0 IH]; [reflexivity|]. intros Hx. cbn. rewrite (proj2 (keq_false x k)) by (apply Hx; left; reflexivity). cbn. rewrite IH by (intros y Hy; apply Hx; right; exact Hy). reflexivity. }
    rewrite F; [reflexivity|]. intros x Hx ->. apply Q in Hx. congruence.
Qed.

(** ** What a call still owes to the size *)
Definition owes (r : option elem) : Z := if is_some r then (-1)%Z else 0%Z.
Definition pend (p : pc) : Z :=
  match p with
  | Incr => 1%Z
  | Decr r | RCount r _ _ _ => owes r
  | Freeze (KLoop r _) _ _ _ | CCas (KLoop r _) _ _ _ => owes r
  | _ => 0%Z
  end.
Definition modulus : Z := (2 ^ 64)%Z.
(** [a] and [b] are the same 64-bit number *)
Definition same64 (a b : Z) : Prop := exists q, (a = b + q * modulus)%Z.
Lemma same_refl a : same64 a a.
Proof. exists 0%Z. lia. Qed.
Lemma same_trans a b c : same64 a b -> same64 b c -> same64 a c.
Proof. intros (q & ->) (q' & ->). exists (q + q')%Z. lia. Qed.
Lemma incr_z n : same64 (Z.of_N (incr n)) (Z.of_N n + 1).
Proof.
  unfold incr, same64, modulus. exists (- Z.of_N ((n + 1) / 2 ^ 64))%Z. pose proof (N.div_mod (n + 1) (2 ^ 64) ltac:(discriminate)) as D. set (q := ((n + 1) / 2 ^ 64)%N) in *. set (r := ((n + 1) mod 2 ^ 64)%N) in *. change (2 ^ 64)%Z with (Z.of_N (2 ^ 64)). lia.
Qed.
Lemma decr_z n : same64 (Z.of_N (decr n)) (Z.of_N n - 1).
Proof.
  unfold decr, same64, modulus. pose proof (N.div_mod (n + (2 ^ 64 - 1)) (2 ^ 64) ltac:(discriminate)) as D. set (q := ((n + (2 ^ 64 - 1)) / 2 ^ 64)%N) in *. set (r := ((n + (2 ^ 64 - 1)) mod 2 ^ 64)%N) in *. exists (1 - Z.of_N q)%Z. change (2 ^ 64)%Z with (Z.of_N (2 ^ 64)). lia.
Qed.

Section Step.
Variables (s : st) (A : ast) (pos : posn) (t : nat).
Hypothesis H : R s A pos.
Let I := r_inv _ _ _ _ _ _ _ H.
Notation h := (hp s).
Notation pt := (pin s t).

(** a step of thread [t] keeps the balance *)
Definition bal (o : outcome K V) : Prop :=
  match o with
  | Next s' _ => pinned s' = pinned s /\ (forall u, u <> t -> pcs s' u = pcs s u) /\
      forall n, size (abs h) n -> exists n', size (abs (hp s')) n' /\ same64 (Z.of_N (len s') + pend (pcs s' t) - Z.of_nat n') (Z.of_N (len s) + pend (pcs s t) - Z.of_nat n)
  | _ => True
  end.
Lemma bal_go p' : pend p' = pend (pcs s t) -> bal (go K V s t p').
Proof.
  intros E. cbn. split; [reflexivity|]. split; [intros u N; apply fup_other; exact N|]. intros n Sz. exists n. split; [exact Sz|]. rewrite fup_same, E. apply same_refl.
Qed.
Lemma bal_quiet h' p' : (forall k, abs h' k = abs h k) -> pend p' = pend (pcs s t) -> bal (goh K V s h' t p').
Proof.
  intros EA E. cbn. split; [reflexivity|]. split; [intros u N; apply fup_other; exact N|]. intros n Sz. exists n. split; [exact (size_ext _ _ _ EA Sz)|]. rewrite fup_same, E. apply same_refl.
Qed.

Lemma bal_wload m e l n par : pcs s t = WLoad m e l n par -> bal (wload K V keq hash s t m e l n par).
Proof.
  intros Ep. unfold wload. destruct (rd K V h pt l) as [(x, g)|]; [|exact Logic.I]. destruct x as [|a|a], g; try (destruct par as [(pl, c)|]; [apply bal_go; rewrite Ep; reflexivity|exact Logic.I]).
  - destruct m; apply bal_go; rewrite Ep; reflexivity.
  - destruct (rdleaf K V h pt a) as [d|]; [|exact Logic.I]. destruct (wleaf K V keq hash m e n d); try exact Logic.I; apply bal_go; rewrite Ep; reflexivity.
  - destruct (n <? 16); [apply bal_go; rewrite Ep; reflexivity|exact Logic.I].
Qed.
Lemma wleaf_up m e n d d' up r : wleaf K V keq hash m e n d = PCas (NLeaf d' up r) -> up = negb (is_some r).
Proof.
  unfold wleaf. destruct d as [|e0 d]; [discriminate|]. destruct (negb _ && _); [destruct m; discriminate|]. destruct (position K V keq (fst e) (e0 :: d)) as [i|].
  - destruct (nth_error (e0 :: d) i); [|discriminate]. destruct m; try discriminate; intros E; injection E as <- <- <-; reflexivity.
  - destruct m; try discriminate; intros E; injection E as <- <- <-; reflexivity.
Qed.
Lemma bal_wcas m e l n par old w : pcs s t = WCas m e l n par old w -> bal (wcas K V s t m e l n par old w).
Proof.
  intros Ep. pose proof (r_ti _ _ _ _ _ _ _ H t) as Ti. rewrite Ep in Ti. destruct Ti as (O & Pa & Pl). assert (E0 : pend (pcs s t) = 0%Z) by (rewrite Ep; reflexivity).
  destruct (okl_rd K V hash _ _ _ I pt (fst e) l n O) as (x & g & Rd & C & W). unfold wcas. destruct (cas_some K V s t l old x g Rd) as (b & Cb). rewrite Cb. destruct b; [|apply bal_go; rewrite E0; reflexivity].
  destruct (cas_inv K V s t l old true x g Rd Cb eq_refl) as (-> & ->). pose proof (okl_linked K V hash _ _ _ I pt (fst e) l n old O C) as Lk.
  assert (NB : forall c, old <> PBr c) by (intros c; destruct Pl as [(-> & _)|(a & d & -> & _)]; discriminate).
  pose proof (linked_leaf K V keq hash _ _ _ (fst e) l n old I Lk C (proj1 O) NB) as Ab.
  assert (LEAF : forall d' up r, good (prefix (fst e) n) d' -> (forall k, sfind k d' = if keq k (fst e) then Some e else sfind k (leafdata h old)) -> r = sfind (fst e) (leafdata h old) -> up = negb (is_some r) ->
    bal (match out K V (wr K V (alloc K V h (BLeaf d')) l (PLeaf (next h), false)) (S (time s)) old with None => Bad | Some h' => goh K V s h' t (if up then Incr else Ret (ChtModel.RElem r)) end)).
  { intros d' up r G F Er Up. rewrite <- (proj1 O) in G. destruct (put_leaf K V keq hash (time s) h pos l old d' I Lk C NB G) as (h' & pos' & Eo & I' & X & Off & On). rewrite Eo.
    assert (EA : forall k, abs h' k = put K V keq e (abs h) k).
    { intros k. unfold put. destruct (on_dec K hash pos l k) as [(n' & P)|Q].
      + destruct (On k n' P) as (A1 & A2). rewrite A1, A2, F. reflexivity.
      + rewrite (Off k Q). destruct (keq k (fst e)) eqn:E; [|reflexivity]. exfalso. apply keq_ok in E. subst k. exact (Q n (proj1 O)). }
    cbn [bal goh]. split; [reflexivity|]. split; [intros u N; apply fup_other; exact N|]. intros n0 Sz. pose proof (size_put _ e _ Sz) as Sp. exists (match abs h (fst e) with Some _ => n0 | None => S n0 end). split; [exact (size_ext _ _ _ EA Sp)|].
    cbn [ChtModel.len ChtModel.pcs set_pc]. rewrite fup_same, E0. rewrite Ab, <- Er. subst up. destruct r; cbn [is_some negb pend]; [apply same_refl|exists 0%Z; lia]. }
  destruct Pl as [(-> & -> & Nr)|(a & d & -> & M & Ew)].
  - apply (LEAF [e] true None); [|reflexivity|reflexivity|reflexivity].
    split; [discriminate|]. split; [repeat constructor; intros []|]. split; [intros x [<-|[]]; rewrite prefix_len; reflexivity|reflexivity].
  - destruct W as (d0 & M0 & G & Al). rewrite M in M0. injection M0 as <-. assert (Ed : leafdata h (PLeaf a) = d) by (cbn; rewrite M; reflexivity). rewrite Ed in *. destruct w as [d' up r|i].
    + destruct (wleaf_leaf K V keq keq_ok hash m e n d G d' up r Ew) as (G' & F & Er & _). apply (LEAF d' up r); try assumption. exact (wleaf_up _ _ _ _ _ _ _ Ew).
    + destruct (wleaf_split K V keq hash m e n d G i Ew) as (L & e0 & -> & ->). pose proof (proj1 O) as P. assert (Ll : length (lpath pos l) = n) by (rewrite P, prefix_len; reflexivity).
      destruct (split_leaf K V keq keq_ok hash (time s) h pos l a e0 n I Lk C M Ll L) as (pos' & I' & X & EA). apply bal_quiet; [exact EA|rewrite E0; reflexivity].
Qed.
Lemma pend_loop r lv : pend (loop K V r lv) = owes r.
Proof. destruct lv; reflexivity. Qed.
Lemma bal_rcas k l n lv a d r : pcs s t = RCas k l n lv a d r -> bal (rcas K V s t k l n lv a d r).
Proof.
  intros Ep. pose proof (r_ti _ _ _ _ _ _ _ H t) as Ti. rewrite Ep in Ti. destruct Ti as (O & Lv & d0 & M & ND & Ed & Er). assert (E0 : pend (pcs s t) = 0%Z) by (rewrite Ep; reflexivity).
  destruct (okl_rd K V hash _ _ _ I pt k l n O) as (x & g & Rd & C & W). unfold rcas. destruct (cas_some K V s t l (PLeaf a) x g Rd) as (b & Cb). rewrite Cb. destruct b; [|apply bal_go; rewrite E0; reflexivity].
  destruct (cas_inv K V s t l _ true x g Rd Cb eq_refl) as (-> & ->). pose proof (okl_linked K V hash _ _ _ I pt k l n _ O C) as Lk.
  pose proof (linked_leaf K V keq hash _ _ _ k l n (PLeaf a) I Lk C (proj1 O) ltac:(discriminate)) as Ab. assert (Ld : leafdata h (PLeaf a) = d0) by (cbn; rewrite M; reflexivity). rewrite Ld in Ab.
  destruct W as (d1 & M1 & G & Al). rewrite M in M1. injection M1 as <-.
  assert (FIN : forall h', (forall k0, (forall n0, lpath pos l <> prefix k0 n0) -> abs h' k0 = abs h k0) ->
    (forall k0 n0, lpath pos l = prefix k0 n0 -> abs h' k0 = sfind k0 d /\ abs h k0 = sfind k0 d0) -> bal (goh K V s h' t (loop K V r lv))).
  { intros h' Off On. assert (EA : forall k0, abs h' k0 = del K V keq k (abs h) k0).
    { intros k0. unfold del. destruct (on_dec K hash pos l k0) as [(n' & P)|Q].
      + destruct (On k0 n' P) as (A1 & A2). rewrite A1, A2, Ed. apply sfind_sdel. exact keq_ok.
      + rewrite (Off k0 Q). destruct (keq k0 k) eqn:E; [|reflexivity]. exfalso. apply keq_ok in E. subst k0. exact (Q n (proj1 O)). }
    cbn [bal goh]. split; [reflexivity|]. split; [intros u N; apply fup_other; exact N|]. intros n0 Sz. destruct (size_del _ k _ Sz) as (n1 & S1 & En). exists n1. split; [exact (size_ext _ _ _ EA S1)|].
    cbn [ChtModel.len ChtModel.pcs set_pc]. rewrite fup_same, E0, pend_loop. rewrite Ab, <- Er in En. unfold owes. destruct r; cbn [is_some]; subst n0; exists 0%Z; lia. }
  destruct d as [|e1 d1] eqn:Edd.
  - destruct (drop_leaf K V keq hash (time s) h pos l a I Lk C) as (h' & pos' & Eo & I' & X & Off & On). cbn zeta. rewrite Eo. rewrite Ld in On. exact (FIN h' Off On).
  - assert (G' : good (lpath pos l) (e1 :: d1)).
    { rewrite (proj1 O). destruct G as (_ & _ & G1 & G2). rewrite Ed in *. split; [rewrite <- Ed; discriminate|]. split; [apply sdel_nodup; exact ND|]. split.
      - intros e He. apply sdel_in in He; [|exact keq_ok]. exact (G1 e (proj1 He)).
      - intros L. specialize (G2 L). pose proof (sdel_length K V keq keq_ok k d0 ND) as SL. rewrite <- Ed in *. cbn in SL |- *. lia. }
    destruct (put_leaf K V keq hash (time s) h pos l (PLeaf a) (e1 :: d1) I Lk C ltac:(discriminate) G') as (h' & pos' & Eo & I' & X & Off & On). cbn zeta. rewrite Eo. rewrite Ld in On. exact (FIN h' Off On).
Qed.
Lemma bal_gload k l hh : pcs s t = GLoad k l hh -> bal (gload K V keq s t k l hh).
Proof.
  intros Ep. unfold gload. destruct (rd K V h pt l) as [(x, g)|]; [|exact Logic.I]. destruct x as [|a|a]; [|destruct (rdleaf K V h pt a); [|exact Logic.I]|]; apply bal_go; rewrite Ep; reflexivity.
Qed.
Lemma bal_rload k l n lv : pcs s t = RLoad k l n lv -> bal (rload K V keq hash s t k l n lv).
Proof.
  intros Ep. unfold rload. destruct (rd K V h pt l) as [(x, g)|]; [|exact Logic.I]. destruct x as [|a|a], g; try (apply bal_go; rewrite Ep; reflexivity); try (destruct lv as [|(pl, c) lv]; [exact Logic.I|apply bal_go; rewrite Ep; reflexivity]).
  - destruct (rdleaf K V h pt a); [|exact Logic.I]. apply bal_go; rewrite Ep; reflexivity.
  - destruct (_ && _); [|exact Logic.I]. apply bal_go; rewrite Ep; reflexivity.
Qed.
Lemma bal_rcount r lv i c : pcs s t = RCount r lv i c -> bal (rcount K V s t r lv i c).
Proof.
  intros Ep. unfold rcount. destruct lv as [|(p, b) rest]; [exact Logic.I|]. destruct (i <? branch_mx).
  - destruct (rd K V h pt (LSlot b i)) as [(x, g)|]; [|exact Logic.I]. apply bal_go; rewrite Ep; reflexivity.
  - destruct (1 <? c); apply bal_go; rewrite Ep; reflexivity.
Qed.
Lemma bal_freeze ct p c acc : pcs s t = Freeze ct p c acc -> bal (freeze K V s t ct p c acc).
Proof.
  intros Ep. pose proof (r_ti _ _ _ _ _ _ _ H t) as Ti. rewrite Ep in Ti. destruct Ti as (Pq & Oc & La & Fz). unfold freeze. destruct (length acc <? branch_mx) eqn:Lb; [|apply bal_go; rewrite Ep; reflexivity].
  pose proof Pq as (_ & ((f & M) & Al) & _). cbn [snd] in M, Al. cbn [rd]. rewrite M, Al. destruct (f (length acc)) as (x, g) eqn:F. destruct (match x with PNull => Some 0 | PLeaf a => option_map (fun d => length d) (rdleaf K V h pt a) | PBr _ => Some 1 end); [|exact Logic.I].
  destruct (tag_ok K V keq hash (time s) h pos c f (length acc) x I M ltac:(rewrite F; reflexivity)) as (I' & X & EA & M'). apply bal_quiet; [exact EA|rewrite Ep; reflexivity].
Qed.
Lemma pend_resume ct b p c acc : pend (resume K V ct b) = pend (CCas ct p c acc).
Proof. destruct ct as [m e|k|r lv]; try reflexivity. destruct b; [reflexivity|]. cbn [resume]. rewrite pend_loop. reflexivity. Qed.
Lemma bal_ccas ct p c acc : pcs s t = CCas ct p c acc -> bal (ccas K V s t ct p c acc).
Proof.
  intros Ep. pose proof (r_ti _ _ _ _ _ _ _ H t) as Ti. rewrite Ep in Ti. destruct Ti as (Pq & Oc & La & Fz).
  destruct (okp_rd K V hash _ _ _ I pt (p, c) Pq) as (x & g & Rd & C & Lk). cbn [fst] in Rd, C, Lk. unfold ccas. destruct (cas_some K V s t p (PBr c) x g Rd) as (b & Cb). rewrite Cb.
  destruct b; [|apply bal_go; rewrite Ep; apply pend_resume].
  destruct (cas_inv K V s t p _ true x g Rd Cb eq_refl) as (-> & ->). specialize (Lk eq_refl). pose proof Pq as (_ & ((f & M) & Al) & _). cbn [snd] in M, Al.
  assert (Hacc : forall i, i < 16 -> snd (f i) = true /\ nth_error acc i = Some (fst (f i), weight h (fst (f i)))).
  { intros i Li. destruct (nth_error acc i) as [y|] eqn:Ey; [|apply nth_error_None in Ey; lia]. destruct (Fz f M i y Ey) as (F & W). rewrite F. split; [reflexivity|]. cbn [fst]. f_equal. destruct y as (y1, y2). cbn [fst snd] in *. f_equal.
    destruct y1 as [|a|a]; [exact W| |exact W]. destruct W as (d & Md & W). cbn. rewrite Md. exact W. }
  destruct (compress_ok K V keq keq_ok hash (time s) h pos p c f acc I Lk C M La Hacc) as (h' & pos' & Eo & I' & X & EA).
  assert (E : bal (match out K V (fst (ccas_heap K V h p acc)) (S (time s)) (PBr c) with None => Bad | Some h' => goh K V s h' t (resume K V ct (snd (ccas_heap K V h p acc))) end)).
  { rewrite Eo. apply bal_quiet; [exact EA|rewrite Ep; apply pend_resume]. }
  unfold ccas_heap in E. destruct (decide acc); exact E.
Qed.
Lemma bal_srun sk acc : pcs s t = SRun sk acc -> bal (srun K V s t sk acc).
Proof.
  intros Ep. assert (Q : forall p', pend p' = 0%Z -> bal (go K V s t p')) by (intros p' E; apply bal_go; rewrite Ep; exact E). unfold srun. destruct sk as [|(x, i) r]; [apply Q; reflexivity|]. destruct x as [|a|a]; [apply Q; reflexivity| |].
  - destruct (rdleaf K V h pt a) as [d|]; [|exact Logic.I]. destruct (nth_error d i); apply Q; reflexivity.
  - destruct (i <? max_tree_height); [|apply Q; reflexivity]. destruct (rd K V h pt (LSlot a i)) as [(x, g)|]; [|exact Logic.I]. destruct (_ <? _); [apply Q; reflexivity|exact Logic.I].
Qed.
Lemma bal_run : bal (run1 K V keq hash s t).
Proof.
  unfold run1. destruct (pcs s t) as [|m e l n par|m e l n par old w|k l hh|k l n lv|k l n lv a d r|r lv i c|ct p c acc|ct p c acc| |r| |sk acc| |r] eqn:Ep.
  - exact Logic.I.
  - exact (bal_wload m e l n par Ep).
  - exact (bal_wcas m e l n par old w Ep).
  - exact (bal_gload k l hh Ep).
  - exact (bal_rload k l n lv Ep).
  - exact (bal_rcas k l n lv a d r Ep).
  - exact (bal_rcount r lv i c Ep).
  - exact (bal_freeze ct p c acc Ep).
  - exact (bal_ccas ct p c acc Ep).
  - cbn. split; [reflexivity|]. split; [intros u N; apply fup_other; exact N|]. intros n Sz. exists n. split; [exact Sz|]. rewrite fup_same, Ep. cbn [pend]. destruct (incr_z (len s)) as (q & Eq). exists q. lia.
  - cbn. split; [reflexivity|]. split; [intros u N; apply fup_other; exact N|]. intros n Sz. exists n. split; [exact Sz|]. rewrite fup_same, Ep. cbn [pend]. unfold owes. destruct (is_some r); [destruct (decr_z (len s)) as (q & Eq); exists q; lia|exists 0%Z; lia].
  - apply bal_go. rewrite Ep. reflexivity.
  - exact (bal_srun sk acc Ep).
  - apply bal_go. rewrite Ep. reflexivity.
  - apply bal_go. rewrite Ep. reflexivity.
Qed.
End Step.

(** ** The size *)
Fixpoint sum (l : list Z) : Z := match l with [] => 0%Z | x :: l => (x + sum l)%Z end.
Record cnt (s : st) : Prop := {
  c_nodup : NoDup (pinned s);
  c_bal : exists n, size (abs (hp s)) n /\ same64 (Z.of_N (len s) + sum (map (fun t => pend (pcs s t)) (pinned s))) (Z.of_nat n);
  c_lt : (len s < 2 ^ 64)%N
}.
Lemma sum_app l l' : sum (l ++ l') = (sum l + sum l')%Z.
Proof. induction l as [|x l IH]; cbn; [reflexivity|]. rewrite IH. lia. Qed.
Lemma sum_same (f g : nat -> Z) l : (forall t, In t l -> f t = g t) -> sum (map f l) = sum (map g l).
Proof. intros E. f_equal. apply map_ext_in. exact E. Qed.
Lemma sum_at (f g : nat -> Z) (l : list nat) (t : nat) : NoDup l -> In t l -> (forall u, u <> t -> f u = g u) -> (sum (map f l) = sum (map g l) + f t - g t)%Z.
Proof.
  intros N Ht E. destruct (in_split _ _ Ht) as (l1 & l2 & ->). apply NoDup_remove in N. destruct N as (_ & N). rewrite !map_app, !sum_app. cbn. rewrite (sum_same f g l1), (sum_same f g l2); [lia| |]; intros u Hu; apply E; intros ->; apply N; apply in_or_app; auto.
Qed.
Lemma sum_remove (f : nat -> Z) (l : list nat) (t : nat) : NoDup l -> f t = 0%Z -> sum (map f (List.remove Nat.eq_dec t l)) = sum (map f l).
Proof.
  intros N E. induction l as [|x l IH]; [reflexivity|]. inversion N; subst. cbn. destruct (Nat.eq_dec t x) as [->|Q]; cbn; rewrite IH by assumption; lia.
Qed.
Lemma remove_nodup t l : NoDup l -> NoDup (List.remove Nat.eq_dec t l).
Proof.
  induction 1 as [|x l Hx N IH]; cbn; [constructor|]. destruct (Nat.eq_dec t x); [exact IH|]. constructor; [|exact IH]. intros Q. apply in_remove in Q. tauto.
Qed.
Lemma len_lt s A pos t a s' e : R s A pos -> (len s < 2 ^ 64)%N -> step s t a = Next s' e -> (len s' < 2 ^ 64)%N.
Proof.
  intros H L. assert (G : forall x p', go K V s x p' = Next s' e -> (len s' < 2 ^ 64)%N) by (intros x p' E; injection E as <- _; exact L). assert (Gh : forall h x p', goh K V s h x p' = Next s' e -> (len s' < 2 ^ 64)%N) by (intros h x p' E; injection E as <- _; exact L).
  destruct a as [| |o|]; cbn [ChtModel.step].
  1, 2, 3: destruct (pcs s t); try discriminate; destruct (inb t (pinned s)); try discriminate; intros E; injection E as <- _; exact L.
  unfold run1. destruct (pcs s t) as [|m e0 l n par|m e0 l n par old w|k l hh|k l n lv|k l n lv a d r|r lv i c|ct p c acc|ct p c acc| |r| |sk acc| |r].
  - discriminate.
  - unfold wload. destruct (rd K V (hp s) (pin s t) l) as [(x, [|])|]; [destruct x, par as [(pl, c)|]; first [apply G|discriminate]| |discriminate]. destruct x as [|a|a]; [destruct m; apply G| |destruct (n <? 16); [apply G|discriminate]].
    destruct (rdleaf _ _ _ _ _); [|discriminate]. destruct (wleaf _ _ _ _ _ _ _ _); [apply G|apply G|discriminate].
  - unfold wcas. destruct (cas_ok _ _ _ _ _ _) as [[|]|]; [|apply G|discriminate]. destruct w; [|apply Gh]. cbn zeta. destruct (out _ _ _ _ _); [apply Gh|discriminate].
  - unfold gload. destruct (rd _ _ _ _ _) as [(x, g)|]; [|discriminate]. destruct x as [|a|a]; [apply G|destruct (rdleaf _ _ _ _ _); [apply G|discriminate]|apply G].
  - unfold rload. destruct (rd _ _ _ _ _) as [(x, g)|]; [|discriminate]. destruct x as [|a|a], g; try apply G; try (destruct lv as [|(pl, c) lv]; [discriminate|apply G]).
    + destruct (rdleaf _ _ _ _ _); [apply G|discriminate].
    + destruct (_ && _); [apply G|discriminate].
  - unfold rcas. destruct (cas_ok _ _ _ _ _ _) as [[|]|]; [|apply G|discriminate]. cbn zeta. destruct (out _ _ _ _ _); [apply Gh|discriminate].
  - unfold rcount. destruct lv as [|(p, b) rest]; [discriminate|]. destruct (i <? branch_mx); [destruct (rd _ _ _ _ _) as [(x, g)|]; [apply G|discriminate]|]. destruct (1 <? c); apply G.
  - unfold freeze. destruct (_ <? _); [|apply G]. destruct (rd _ _ _ _ _) as [(x, g)|]; [|discriminate]. destruct (match x with PNull => Some 0 | PLeaf a => option_map (fun d => length d) (rdleaf K V (hp s) (pin s t) a) | PBr _ => Some 1 end); [apply Gh|discriminate].
  - unfold ccas. destruct (cas_ok _ _ _ _ _ _) as [[|]|]; [|apply G|discriminate]. cbn zeta. destruct (decide acc); destruct (out _ _ _ _ _); first [apply Gh|discriminate].
  - intros E. injection E as <- _. cbn. unfold incr. apply N.mod_lt. discriminate.
  - intros E. injection E as <- _. cbn. destruct (is_some r); [unfold decr; apply N.mod_lt; discriminate|exact L].
  - apply G.
  - unfold srun. destruct sk as [|(x, i) r]; [apply G|]. destruct x as [|a|a]; [apply G| |].
    + destruct (rdleaf _ _ _ _ _) as [d|]; [|discriminate]. destruct (nth_error d i); apply G.
    + destruct (i <? max_tree_height); [|apply G]. destruct (rd _ _ _ _ _) as [(x, g)|]; [|discriminate]. destruct (_ <? _); [apply G|discriminate].
  - apply G.
  - intros E. injection E as <- _. exact L.
Qed.
Lemma cnt_step s A pos t a s' e : R s A pos -> cnt s -> step s t a = Next s' e -> cnt (tick K V s').
Proof.
  intros H [N (n & Sz & B) L] St. pose proof (len_lt s A pos t a s' e H L St) as L'.
  assert (BAL : In t (pinned s) -> bal s t (Next s' e) -> cnt (tick K V s')).
  { intros Pt (Ep & Eo & Q). destruct (Q n Sz) as (n' & Sz' & Q'). constructor; cbn; [rewrite Ep; exact N| |exact L']. exists n'. split; [exact Sz'|]. rewrite Ep.
    rewrite (sum_at (fun u => pend (pcs s' u)) (fun u => pend (pcs s u)) (pinned s) t N Pt) by (intros u Hu; rewrite Eo by exact Hu; reflexivity). destruct B as (q & B). destruct Q' as (q' & Q'). exists (q + q')%Z. lia. }
  destruct a as [| |o|]; cbn [ChtModel.step] in St.
  - destruct (pcs s t) eqn:Ep; try discriminate St. destruct (inb t (pinned s)) eqn:Pi; [discriminate St|]. injection St as <- _. constructor; cbn; [constructor; [intros Q; apply inb_iff in Q; congruence|exact N]| |exact L]. exists n. split; [exact Sz|]. rewrite Ep. exact B.
  - destruct (pcs s t) eqn:Ep; try discriminate St. destruct (inb t (pinned s)) eqn:Pi; [|discriminate St]. injection St as <- _. constructor; cbn; [exact (remove_nodup t _ N)| |exact L]. exists n. split; [exact Sz|]. rewrite sum_remove; [exact B|exact N|rewrite Ep; reflexivity].
  - destruct (pcs s t) eqn:Ep; try discriminate St. destruct (inb t (pinned s)) eqn:Pi; [|discriminate St]. injection St as <- <-. apply (BAL (proj1 (inb_iff _ _) Pi)). cbn. split; [reflexivity|]. split; [intros u Q; apply fup_other; exact Q|]. intros m Sm. exists m. split; [exact Sm|]. rewrite fup_same, Ep. destruct o; cbn [start pend]; apply same_refl.
  - destruct (in_dec Nat.eq_dec t (pinned s)) as [Pt|Pt].
    + apply (BAL Pt). rewrite <- St. exact (bal_run s A pos t H).
    + unfold run1 in St. rewrite (r_idle _ _ _ _ _ _ _ H t Pt) in St. discriminate St.
Qed.
Lemma cnt_init : cnt (init K V).
Proof.
  constructor; cbn; [constructor| |reflexivity]. exists 0. split; [|apply same_refl]. exists []. split; [constructor|]. split; [reflexivity|]. intros k. split; [intros []|]. intros Q. apply Q. reflexivity.
Qed.
Lemma cnt_run : forall sch s A pos s' e, R s A pos -> cnt s -> run s sch = Next s' e -> cnt s'.
Proof.
  induction sch as [|(t, a) sch IH]; intros s A pos s' e H C; cbn [ChtModel.run]; [intros E; injection E as <- _; exact C|]. pose proof (step_ok K V keq keq_ok hash s A pos t H a) as S1. destruct (step s t a) as [| |s1 e1] eqn:St; try discriminate.
  destruct S1 as (A1 & pos1 & _ & R1 & _). pose proof (fun e2 => IH _ _ _ s' e2 R1 (cnt_step _ _ _ _ _ _ _ H C St)) as IH1. destruct (run (tick K V s1) sch) as [| |s2 e2]; try discriminate. intros E. injection E as -> _. exact (IH1 e2 eq_refl).
Qed.

(** ** Memory *)
(** the pointers met when one follows pointers from the root *)
Inductive reach (h : heap) : ptr -> Prop :=
| reach_root : reach h (root h)
| reach_slot b f i : reach h (PBr b) -> mem h b = BBr f -> i < 16 -> reach h (fst (f i)).
Lemma reach_linked T h pos x : Inv T h pos -> reach h x -> exists l g, linked h l /\ content h l = Some (x, g).
Proof.
  intros I Re. induction Re as [|b f i Re (l & g & Lk & C) M Li].
  - exists LRoot, false. split; [exact Logic.I|reflexivity].
  - destruct (linked_valid K V hash _ _ _ I l _ g Lk C) as (_ & _ & Rb). cbn in Rb. destruct (linked_slot K V h b f i M Rb Li) as (L2 & C2). eauto.
Qed.
Lemma reach_live T h pos : Inv T h pos -> forall a, reach h (PLeaf a) \/ reach h (PBr a) -> mem h a <> BNone /\ rtd h a = None.
Proof.
  intros I a [Re|Re]; destruct (reach_linked T h pos _ I Re) as (l & g & Lk & C); pose proof (linked_valid K V hash _ _ _ I l _ g Lk C) as W.
  - destruct W as ((d & M & _) & Ra). cbn in Ra. split; [congruence|exact Ra].
  - destruct W as ((f & M) & _ & Ra). cbn in Ra. split; [congruence|exact Ra].
Qed.
Lemma linked_reach T h pos : Inv T h pos -> forall n l x g, length (lpath pos l) <= n -> linked h l -> content h l = Some (x, g) -> reach h x.
Proof.
  intros I. induction n as [|n IH]; intros l x g L Lk C.
  - destruct l as [|b i]; [cbn in C; injection C as <- _; apply reach_root|]. cbn [lpath] in L. rewrite app_length in L. cbn in L. lia.
  - destruct l as [|b i]; [cbn in C; injection C as <- _; apply reach_root|]. cbn [lpath] in L. rewrite app_length in L. cbn in L. destruct Lk as (Li & Rb & f & M). cbn in C. rewrite M in C. injection C as C.
    destruct (v_lnk _ _ _ _ _ _ I b f M Rb) as (l2 & g2 & P & Lk2 & C2). assert (Rb2 : reach h (PBr b)) by (apply (IH l2 _ g2); [rewrite P; lia|exact Lk2|exact C2]).
    replace x with (fst (f i)) by (rewrite C; reflexivity). exact (reach_slot h b f i Rb2 M Li).
Qed.
Lemma live_reach T h pos : Inv T h pos -> forall a, mem h a <> BNone -> rtd h a = None -> reach h (PLeaf a) \/ reach h (PBr a).
Proof.
  intros I a Na Ra. destruct (mem h a) as [|d|f] eqn:M; [congruence| |].
  - left. destruct (v_leaf _ _ _ _ _ _ I a d M Ra) as (l & g & Lk & C). exact (linked_reach T h pos I _ l _ g (le_n _) Lk C).
  - right. destruct (v_lnk _ _ _ _ _ _ I a f M Ra) as (l & g & _ & Lk & C). exact (linked_reach T h pos I _ l _ g (le_n _) Lk C).
Qed.

(** ** The steps of a lookup *)
Definition runs (t : nat) (sch : list (nat * act K V)) : nat := length (filter (fun x => (fst x =? t) && match snd x with ARun _ _ => true | _ => false end) sch).
(** thread [t] is at level [n] of a lookup or has its answer *)
Definition looking (s : st) (pos : posn) (t : nat) (todo : nat) : Prop :=
  match pcs s t with
  | GLoad k l _ => exists n, okl (hp s) pos (pin s t) k l n /\ todo = 18 - n
  | Ret _ => todo = 1
  | _ => False
  end.
Lemma look_todo s A pos t m : R s A pos -> looking s pos t m -> 1 <= m.
Proof.
  intros H. unfold looking. destruct (pcs s t); try tauto; [|lia]. intros (n & O & ->). pose proof (proj1 (okl_len K V hash _ _ _ (r_inv _ _ _ _ _ _ _ H) _ _ _ _ O)). lia.
Qed.
Lemma step_other s t a s' e u : step s t a = Next s' e -> u <> t -> pcs s' u = pcs s u /\ pin s' u = pin s u.
Proof.
  intros St N. assert (F : forall (B : Type) (f : nat -> B) x, fup f t x u = f u) by (intros; apply fup_other; exact N).
  assert (G : forall p', go K V s t p' = Next s' e -> pcs s' u = pcs s u /\ pin s' u = pin s u) by (intros p' E; injection E as <- _; cbn; rewrite F; auto). assert (Gh : forall h p', goh K V s h t p' = Next s' e -> pcs s' u = pcs s u /\ pin s' u = pin s u) by (intros h p' E; injection E as <- _; cbn; rewrite F; auto).
  revert St. destruct a as [| |o|]; cbn [ChtModel.step].
  1, 2, 3: destruct (pcs s t); try discriminate; destruct (inb t (pinned s)); try discriminate; intros E; injection E as <- _; cbn; rewrite ?F; auto.
  unfold run1. destruct (pcs s t) as [|m e0 l n par|m e0 l n par old w|k l hh|k l n lv|k l n lv a d r|r lv i c|ct p c acc|ct p c acc| |r| |sk acc| |r].
  - discriminate.
  - unfold wload. destruct (rd K V (hp s) (pin s t) l) as [(x, [|])|]; [destruct x, par as [(pl, c)|]; first [apply G|discriminate]| |discriminate]. destruct x as [|a|a]; [destruct m; apply G| |destruct (n <? 16); [apply G|discriminate]].
    destruct (rdleaf _ _ _ _ _); [|discriminate]. destruct (wleaf _ _ _ _ _ _ _ _); [apply G|apply G|discriminate].
  - unfold wcas. destruct (cas_ok _ _ _ _ _ _) as [[|]|]; [|apply G|discriminate]. destruct w; [|apply Gh]. cbn zeta. destruct (out _ _ _ _ _); [apply Gh|discriminate].
  - unfold gload. destruct (rd _ _ _ _ _) as [(x, g)|]; [|discriminate]. destruct x as [|a|a]; [apply G|destruct (rdleaf _ _ _ _ _); [apply G|discriminate]|apply G].
  - unfold rload. destruct (rd _ _ _ _ _) as [(x, g)|]; [|discriminate]. destruct x as [|a|a], g; try apply G; try (destruct lv as [|(pl, c) lv]; [discriminate|apply G]).
    + destruct (rdleaf _ _ _ _ _); [apply G|discriminate].
    + destruct (_ && _); [apply G|discriminate].
  - unfold rcas. destruct (cas_ok _ _ _ _ _ _) as [[|]|]; [|apply G|discriminate]. cbn zeta. destruct (out _ _ _ _ _); [apply Gh|discriminate].
  - unfold rcount. destruct lv as [|(p, b) rest]; [discriminate|]. destruct (i <? branch_mx); [destruct (rd _ _ _ _ _) as [(x, g)|]; [apply G|discriminate]|]. destruct (1 <? c); apply G.
  - unfold freeze. destruct (_ <? _); [|apply G]. destruct (rd _ _ _ _ _) as [(x, g)|]; [|discriminate]. destruct (match x with PNull => Some 0 | PLeaf a => option_map (fun d => length d) (rdleaf K V (hp s) (pin s t) a) | PBr _ => Some 1 end); [apply Gh|discriminate].
  - unfold ccas. destruct (cas_ok _ _ _ _ _ _) as [[|]|]; [|apply G|discriminate]. cbn zeta. destruct (decide acc); destruct (out _ _ _ _ _); first [apply Gh|discriminate].
  - intros E. injection E as <- _. cbn. rewrite F. auto.
  - intros E. injection E as <- _. cbn. rewrite F. auto.
  - apply G.
  - unfold srun. destruct sk as [|(x, i) r]; [apply G|]. destruct x as [|a|a]; [apply G| |].
    + destruct (rdleaf _ _ _ _ _) as [d|]; [|discriminate]. destruct (nth_error d i); apply G.
    + destruct (i <? max_tree_height); [|apply G]. destruct (rd _ _ _ _ _) as [(x, g)|]; [|discriminate]. destruct (_ <? _); [apply G|discriminate].
  - apply G.
  - intros E. injection E as <- _. cbn. rewrite F. auto.
Qed.
Lemma look_other s A pos t a s' e pos' u m : R s A pos -> ext (time s) (hp s) pos (hp s') pos' -> step s t a = Next s' e -> u <> t -> looking s pos u m -> looking (tick K V s') pos' u m.
Proof.
  intros H X St N L. destruct (step_other s t a s' e u St N) as (E1 & E2). unfold looking in *. cbn. rewrite E1, E2. destruct (pcs s u) eqn:Ep; try exact L. destruct L as (n & O & ->). exists n. split; [|reflexivity].
  assert (Np : pcs s u <> Idle) by (rewrite Ep; discriminate). exact (okl_ext K V hash _ _ _ _ _ _ X (r_pin _ _ _ _ _ _ _ H u (not_idle K V keq hash s A pos u H Np)) _ _ _ O).
Qed.
Lemma look_self s A pos t s' e m : R s A pos -> step s t (ARun _ _) = Next s' e -> looking s pos t m -> (exists r, e = [ERet t r]) \/ (hp s' = hp s /\ e = [] /\ exists m', m' < m /\ looking (tick K V s') pos t m').
Proof.
  intros H St L. pose proof (look_todo s A pos t m H L) as Lm. unfold looking in L. cbn [ChtModel.step] in St. unfold run1 in St. destruct (pcs s t) as [| | |k l hh| | | | | | | | | | |r] eqn:Ep; try contradiction.
  - right. destruct L as (n & O & ->). pose proof (proj1 (okl_len K V hash _ _ _ (r_inv _ _ _ _ _ _ _ H) _ _ _ _ O)) as Ln. pose proof (r_ti _ _ _ _ _ _ _ H t) as Ti. rewrite Ep in Ti. destruct Ti as (n' & O' & Eh).
    assert (n' = n). { pose proof (proj1 O) as P. rewrite (proj1 O') in P. apply (prefix_inj K hash) in P. exact P. } subst n'.
    destruct (okl_rd K V hash _ _ _ (r_inv _ _ _ _ _ _ _ H) _ k l n O) as (x & g & Rd & C & W). unfold gload in St. rewrite Rd in St.
    assert (Fin : forall r, go K V s t (Ret r) = Next s' e -> hp s' = hp s /\ e = [] /\ exists m', m' < 18 - n /\ looking (tick K V s') pos t m').
    { intros r E. injection E as <- <-. split; [reflexivity|]. split; [reflexivity|]. exists 1. split; [lia|]. unfold looking. cbn. rewrite fup_same. reflexivity. }
    destruct x as [|a|a]; [exact (Fin _ St)|destruct (rdleaf _ _ _ _ _); [exact (Fin _ St)|discriminate St]|]. destruct W as (B & P & L16). injection St as <- <-. split; [reflexivity|]. split; [reflexivity|]. exists (18 - S n). split; [lia|].
    unfold looking. cbn [tick set_pc ChtModel.pcs ChtModel.hp ChtModel.pin]. rewrite fup_same. exists (S n). split; [|reflexivity]. rewrite Eh, (shift_chunk K hash). exact (child_okl K V hash s pos t k a n B P).
  - left. injection St as _ <-. eauto.
Qed.
Lemma look_run : forall sch s A pos t m s' e, R s A pos -> looking s pos t m -> (forall o, ~ In (t, ACall _ _ o) sch) -> run s sch = Next s' e -> m <= runs t sch -> exists r, In (ERet t r) e.
Proof.
  induction sch as [|(u, a) sch IH]; intros s A pos t m s' e H L NC Rn Lm; cbn [ChtModel.run] in Rn; [pose proof (look_todo s A pos t m H L); cbn in Lm; lia|].
  pose proof (step_ok K V keq keq_ok hash s A pos u H a) as S1. destruct (step s u a) as [| |s1 e1] eqn:St; try discriminate Rn. destruct S1 as (A1 & pos1 & _ & R1 & X). destruct (run (tick K V s1) sch) as [| |s2 e2] eqn:Rn2; try discriminate Rn. injection Rn as <- <-.
  assert (NC' : forall o, ~ In (t, ACall _ _ o) sch) by (intros o Q; apply (NC o); right; exact Q).
  assert (NEXT : forall m', looking (tick K V s1) pos1 t m' -> m' <= runs t sch -> exists r, In (ERet t r) (e1 ++ e2)).
  { intros m' L' Q. destruct (IH _ _ _ t m' _ _ R1 L' NC' Rn2 Q) as (r & Hr). exists r. apply in_or_app. auto. }
  destruct (Nat.eq_dec u t) as [->|N].
  - destruct a as [| |o|].
    + exfalso. cbn in St. unfold looking in L. destruct (pcs s t); try contradiction; discriminate St.
    + exfalso. cbn in St. unfold looking in L. destruct (pcs s t); try contradiction; discriminate St.
    + exfalso. apply (NC o). left. reflexivity.
    + unfold runs in Lm. cbn in Lm. rewrite Nat.eqb_refl in Lm. cbn in Lm. destruct (look_self s A pos t s1 e1 m H St L) as [(r & ->)|(Eh & -> & m' & Lt & L')]; [exists r; left; reflexivity|].
      apply (NEXT m'); [|unfold runs; lia]. unfold looking in *. cbn in *. destruct (pcs s1 t); try exact L'. destruct L' as (n & O & ->). exists n. split; [|reflexivity]. destruct O as (P & O). split; [|exact O]. rewrite <- P. rewrite Eh in O. destruct l as [|b i]; [reflexivity|]. destruct O as ((f & M) & _). cbn [lpath]. rewrite (proj1 (e_br _ _ _ _ _ _ _ X b f M)). reflexivity.
  - apply (NEXT m); [exact (look_other s A pos u a s1 e1 pos1 t m H X St (not_eq_sym N) L)|]. unfold runs in *. cbn in Lm. replace (u =? t) with false in Lm by (symmetry; apply Nat.eqb_neq; exact N). exact Lm.
Qed.
End Count.
