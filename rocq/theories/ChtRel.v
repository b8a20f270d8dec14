(** The row index under every schedule: what the threads know, and the calls of the map they stand for. *)
From Coq Require Import List Arith NArith Bool Lia.
From Verif Require Import MtModel MtSpec MtProofs ChtModel ChtSpec ChtHeap ChtMap.
Import ListNotations.
Local Open Scope nat_scope.

Arguments BNone {K V}. Arguments BLeaf {K V}. Arguments BBr {K V}.
Arguments MkHeap {K V}. Arguments root {K V}. Arguments mem {K V}. Arguments next {K V}. Arguments rtd {K V}.
Arguments MkSt {K V}. Arguments hp {K V}. Arguments time {K V}. Arguments pinned {K V}. Arguments pin {K V}. Arguments len {K V}. Arguments pcs {K V}.
Arguments Idle {K V}. Arguments WLoad {K V}. Arguments WCas {K V}. Arguments GLoad {K V}. Arguments RLoad {K V}. Arguments RCas {K V}. Arguments RCount {K V}.
Arguments Freeze {K V}. Arguments CCas {K V}. Arguments Incr {K V}. Arguments Decr {K V}. Arguments SInit {K V}. Arguments SRun {K V}. Arguments LLoad {K V}. Arguments Ret {K V}.
Arguments NLeaf {K V}. Arguments NSplit {K V}. Arguments KWrite {K V}. Arguments KDel {K V}. Arguments KLoop {K V}.
Arguments ChtModel.OWrite {K V}. Arguments ChtModel.ODel {K V}. Arguments ChtModel.OGet {K V}. Arguments ChtModel.OScan {K V}. Arguments ChtModel.OLen {K V}.
Arguments ChtModel.RElem {K V}. Arguments ChtModel.RList {K V}. Arguments ChtModel.RLen {K V}.
Arguments PRet {K V}. Arguments PCas {K V}. Arguments PPanic {K V}.
Arguments EInv {K V}. Arguments ERet {K V}. Arguments Dis {K V}. Arguments Bad {K V}. Arguments Next {K V}.
Arguments MkA {K V}. Arguments am {K V}. Arguments ath {K V}. Arguments AIdle {K V}. Arguments APending {K V}. Arguments AScan {K V}. Arguments AReady {K V}.
Arguments watch {K V}. Arguments asteps {K V}. Arguments alive {K V}. Arguments leafdata {K V}. Arguments weight {K V}.

Section Rel.
Variables K V : Type.
Variable keq : K -> K -> bool.
Hypothesis keq_ok : forall a b, keq a b = true <-> a = b.
Variable hash : K -> N.
Notation elem := (K * V)%type.
Notation heap := (heap K V).
Notation chunk_at := (chunk_at K hash).
Notation sfind := (sfind K V keq).
Notation prefix := (prefix K hash).
Notation content := (content K V).
Notation linked := (linked K V).
Notation good := (good K V hash).
Notation valid := (valid K V hash).
Notation Inv := (Inv K V hash).
Notation abs := (abs K V keq hash).
Notation ext := (ext K V).
Notation pc := (pc K V).
Notation mstep := (mstep K V keq).
Notation athread := (athread K V).
Notation amap := (amap K V).

(** * Threads *)
Definition okb (h : heap) (pt a : nat) : Prop := (exists f, mem h a = BBr f) /\ alive h pt a = true.
Definition okl (h : heap) (pos : posn) (pt : nat) (k : K) (l : loc) (n : nat) : Prop :=
  lpath pos l = prefix k n /\ match l with LRoot => True | LSlot a _ => okb h pt a end.
Definition okp (h : heap) (pos : posn) (pt : nat) (q : loc * nat) : Prop :=
  pos (snd q) = lpath pos (fst q) /\ okb h pt (snd q) /\ match fst q with LRoot => True | LSlot a i => i < 16 /\ okb h pt a end.
Definition okpar (h : heap) (pos : posn) (pt : nat) (l : loc) (par : option (loc * nat)) : Prop :=
  match par with None => l = LRoot | Some q => okp h pos pt q /\ exists i, l = LSlot (snd q) i end.
Definition oklv (h : heap) (pos : posn) (pt : nat) (l : loc) (n : nat) (lv : list (loc * nat)) : Prop :=
  Forall (okp h pos pt) lv /\ length lv = n /\ match lv with [] => l = LRoot | q :: _ => exists i, l = LSlot (snd q) i end.
Definition okct (h : heap) (pos : posn) (pt : nat) (ct : cont K V) : Prop := match ct with KLoop _ lv => Forall (okp h pos pt) lv | _ => True end.
Definition frz (h : heap) (c : nat) (acc : list (ptr * nat)) : Prop :=
  forall f, mem h c = BBr f -> forall i x, nth_error acc i = Some x -> f i = (fst x, true) /\
  match fst x with PNull => snd x = 0 | PLeaf a => exists d, mem h a = BLeaf d /\ snd x = length d | PBr _ => snd x = 1 end.
Definition okplan (h : heap) (m : wmode) (e : elem) (n : nat) (old : ptr) (w : neww K V) : Prop :=
  (old = PNull /\ w = NLeaf [e] true None /\ m <> Refresh) \/ exists a d, old = PLeaf a /\ mem h a = BLeaf d /\ wleaf K V keq hash m e n d = PCas w.

Definition TI (h : heap) (pos : posn) (pt : nat) (p : pc) : Prop :=
  match p with
  | WLoad m e l n par => okl h pos pt (fst e) l n /\ okpar h pos pt l par
  | WCas m e l n par old w => okl h pos pt (fst e) l n /\ okpar h pos pt l par /\ okplan h m e n old w
  | GLoad k l hh => exists n, okl h pos pt k l n /\ hh = N.shiftr (hash k) (4 * N.of_nat n)
  | RLoad k l n lv => okl h pos pt k l n /\ oklv h pos pt l n lv
  | RCas k l n lv a d r => okl h pos pt k l n /\ oklv h pos pt l n lv /\ exists d0, mem h a = BLeaf d0 /\ NoDup (map fst d0) /\ d = sdel K V keq k d0 /\ r = sfind k d0
  | RCount r lv i c => lv <> [] /\ Forall (okp h pos pt) lv
  | Freeze ct q c acc => okp h pos pt (q, c) /\ okct h pos pt ct /\ length acc <= 16 /\ frz h c acc
  | CCas ct q c acc => okp h pos pt (q, c) /\ okct h pos pt ct /\ length acc = 16 /\ frz h c acc
  | _ => True
  end.

Section Stable.
Variables (T : nat) (h : heap) (pos : posn) (h' : heap) (pos' : posn) (pt : nat).
Hypothesis X : ext T h pos h' pos'.
Hypothesis PT : pt <= T.
Lemma alive_ext a : alive h pt a = true -> alive h' pt a = true.
Proof.
  unfold alive. destruct (e_rtd _ _ _ _ _ _ _ X a) as [E|(E & E')]; rewrite E; [auto|]. rewrite E'. intros _. apply Nat.ltb_lt. lia.
Qed.
Lemma okb_ext a : okb h pt a -> okb h' pt a /\ pos' a = pos a.
Proof. intros ((f & M) & A). destruct (e_br _ _ _ _ _ _ _ X a f M) as (P & f' & M' & _). split; [split; [eauto|exact (alive_ext a A)]|exact P]. Qed.
Lemma okl_ext k l n : okl h pos pt k l n -> okl h' pos' pt k l n.
Proof. intros (P & B). destruct l as [|a i]; [split; [exact P|exact Logic.I]|]. destruct (okb_ext a B) as (B' & E). split; [cbn in *; rewrite E; exact P|exact B']. Qed.
Lemma okp_ext q : okp h pos pt q -> okp h' pos' pt q.
Proof.
  intros (P & B & C). destruct q as (l, c). cbn [fst snd] in *. destruct (okb_ext c B) as (B' & E). unfold okp. cbn [fst snd]. rewrite E, P. destruct l as [|a i].
  - split; [reflexivity|]. split; [exact B'|exact Logic.I].
  - destruct C as (Li & C). destruct (okb_ext a C) as (C' & E'). cbn. rewrite E'. auto.
Qed.
Lemma okps_ext lv : Forall (okp h pos pt) lv -> Forall (okp h' pos' pt) lv.
Proof. apply Forall_impl. exact okp_ext. Qed.
Lemma okpar_ext l par : okpar h pos pt l par -> okpar h' pos' pt l par.
Proof. destruct par as [q|]; [|auto]. intros (P & i & ->). split; [exact (okp_ext q P)|cbn; eauto]. Qed.
Lemma oklv_ext l n lv : oklv h pos pt l n lv -> oklv h' pos' pt l n lv.
Proof. intros (P & Q & R). split; [exact (okps_ext lv P)|]. auto. Qed.
Lemma okct_ext ct : okct h pos pt ct -> okct h' pos' pt ct.
Proof. destruct ct; cbn; auto. apply okps_ext. Qed.
Lemma frz_ext c acc : okb h pt c -> frz h c acc -> frz h' c acc.
Proof.
  intros ((f & M) & _) F f2 M2 i x E. destruct (e_br _ _ _ _ _ _ _ X c f M) as (_ & f' & M' & B & _). rewrite M2 in M'. injection M' as <-.
  destruct (F f M i x E) as (A & W). split.
  - rewrite B; [exact A|]. rewrite A. reflexivity.
  - destruct (fst x) as [|a|a]; [exact W| |exact W]. destruct W as (d & Md & W). exists d. split; [exact (e_leaf _ _ _ _ _ _ _ X a d Md)|exact W].
Qed.
Lemma TI_ext p : TI h pos pt p -> TI h' pos' pt p.
Proof.
  destruct p; cbn [TI]; auto.
  - intros (A & B). split; [exact (okl_ext _ _ _ A)|exact (okpar_ext _ _ B)].
  - intros (A & B & C). split; [exact (okl_ext _ _ _ A)|]. split; [exact (okpar_ext _ _ B)|]. destruct C as [C|(a & d & E & M & C)]; [left; exact C|]. right. exists a, d. split; [exact E|].
    split; [exact (e_leaf _ _ _ _ _ _ _ X a d M)|exact C].
  - intros (n & A & B). exists n. split; [exact (okl_ext _ _ _ A)|exact B].
  - intros (A & B). split; [exact (okl_ext _ _ _ A)|exact (oklv_ext _ _ _ B)].
  - intros (A & B & d0 & M & C). split; [exact (okl_ext _ _ _ A)|]. split; [exact (oklv_ext _ _ _ B)|]. exists d0. split; [exact (e_leaf _ _ _ _ _ _ _ X _ _ M)|exact C].
  - intros (A & B). split; [exact A|exact (okps_ext _ B)].
  - intros (A & B & C & D). split; [exact (okp_ext _ A)|]. split; [exact (okct_ext _ B)|]. split; [exact C|]. apply frz_ext; [exact (proj1 (proj2 A))|exact D].
  - intros (A & B & C & D). split; [exact (okp_ext _ A)|]. split; [exact (okct_ext _ B)|]. split; [exact C|]. apply frz_ext; [exact (proj1 (proj2 A))|exact D].
Qed.
End Stable.

(** * What a thread finds in a slot *)
Section Find.
Variables (T : nat) (h : heap) (pos : posn).
Hypothesis I : Inv T h pos.
Lemma alive_later pt a b : alive h pt b = true -> later K V h a (rtd h b) -> alive h pt a = true.
Proof.
  unfold alive, later. destruct (rtd h b) as [u|]; [|intros _ ->; reflexivity]. intros A L. destruct (rtd h a) as [v|]; [|reflexivity]. specialize (L v eq_refl). apply Nat.ltb_lt in A. apply Nat.ltb_lt. lia.
Qed.
Lemma slot_child pt b f i : mem h b = BBr f -> alive h pt b = true -> i < 16 ->
  match fst (f i) with
  | PNull => True
  | PLeaf a => (exists d, mem h a = BLeaf d /\ good (pos b ++ [i]) d) /\ alive h pt a = true
  | PBr a => okb h pt a /\ pos a = pos b ++ [i] /\ length (pos a) < 16
  end.
Proof.
  intros M A Li. destruct (v_br _ _ _ _ _ _ I b f M) as (_ & W). specialize (W i Li). destruct (fst (f i)) as [|a|a]; [exact Logic.I| |].
  - destruct W as (W & L). split; [exact W|exact (alive_later pt a b A L)].
  - destruct W as ((g & Mg) & P & L). split; [split; [eauto|exact (alive_later pt a b A L)]|]. split; [exact P|]. exact (proj1 (v_br _ _ _ _ _ _ I a g Mg)).
Qed.
Lemma okl_len pt k l n : okl h pos pt k l n -> n <= 16 /\ match l with LRoot => n = 0 | LSlot _ i => i < 16 end.
Proof.
  intros (P & B). pose proof (f_equal (@length nat) P) as L. rewrite prefix_len in L. destruct l as [|a i]; cbn in L; [lia|]. destruct B as ((f & M) & _).
  pose proof (proj1 (v_br _ _ _ _ _ _ I a f M)) as Q. rewrite app_length in L. cbn in L. split; [lia|]. cbn in P. destruct n as [|n]; [exfalso; lia|]. rewrite prefix_S in P. apply app_inj_tail in P. destruct P as (_ & ->). apply chunk_at_lt.
Qed.
(** the load succeeds, and what it gives *)
Lemma okl_rd pt k l n : okl h pos pt k l n -> exists x g, rd K V h pt l = Some (x, g) /\ content h l = Some (x, g) /\
  match x with
  | PNull => True
  | PLeaf a => exists d, mem h a = BLeaf d /\ good (prefix k n) d /\ alive h pt a = true
  | PBr a => okb h pt a /\ pos a = prefix k n /\ n < 16
  end.
Proof.
  intros O. destruct (okl_len pt k l n O) as (L & Li). destruct O as (P & B). destruct l as [|b i].
  - exists (root h), false. split; [reflexivity|]. split; [reflexivity|]. pose proof (v_root _ _ _ _ _ _ I) as W. cbn in P. rewrite <- P. destruct (root h) as [|a|a]; [exact Logic.I| |].
    + destruct W as ((d & M & G) & R). exists d. split; [exact M|]. split; [exact G|]. unfold alive. cbn in R. rewrite R. reflexivity.
    + destruct W as (W & Pa & R). split; [split; [exact W|]; unfold alive; cbn in R; rewrite R; reflexivity|]. split; [exact Pa|lia].
  - destruct B as ((f & M) & A). destruct (f i) as (x, g) eqn:F. exists x, g. cbn [rd ChtHeap.content]. rewrite M, A, F. split; [reflexivity|]. split; [reflexivity|].
    pose proof (slot_child pt b f i M A Li) as W. rewrite F in W. cbn [fst] in W. cbn [lpath] in P. rewrite P in W. destruct x as [|a|a]; [exact Logic.I| |].
    + destruct W as ((d & Md & G) & Al). eauto.
    + destruct W as (W & Pa & Len). split; [exact W|]. split; [exact Pa|]. rewrite Pa, prefix_len in Len. exact Len.
Qed.
(** an untagged slot is in the tree *)
Lemma okl_linked pt k l n x : okl h pos pt k l n -> content h l = Some (x, false) -> linked h l.
Proof.
  intros O C. destruct (okl_len pt k l n O) as (_ & Li). destruct l as [|b i]; [exact Logic.I|]. destruct O as (_ & (f & M) & _). cbn in C. rewrite M in C. injection C as C.
  exact (untagged_linked K V hash T h pos I b f i x M Li C).
Qed.
Lemma okp_rd pt q : okp h pos pt q -> exists x g, rd K V h pt (fst q) = Some (x, g) /\ content h (fst q) = Some (x, g) /\ (g = false -> linked h (fst q)).
Proof.
  intros (_ & _ & C). destruct (fst q) as [|a i]; [exists (root h), false; repeat split; auto|]. destruct C as (Li & (f & M) & A). destruct (f i) as (x, g) eqn:F. exists x, g. cbn [rd ChtHeap.content].
  rewrite M, A, F. split; [reflexivity|]. split; [reflexivity|]. intros ->. exact (untagged_linked K V hash T h pos I a f i x M Li F).
Qed.
Lemma rdleaf_ok pt a d : mem h a = BLeaf d -> alive h pt a = true -> rdleaf K V h pt a = Some d.
Proof. intros M A. unfold rdleaf. rewrite M, A. reflexivity. Qed.
End Find.

(** * The call a thread stands for *)
(** nothing here, in a branch that left the tree *)
Definition nul (h : heap) (l : loc) : bool :=
  match l with
  | LRoot => false
  | LSlot b i =>
      match rtd h b, mem h b with
      | Some _, BBr f => match fst (f i) with PNull => true | _ => false end
      | _, _ => false
      end
  end.
(** the answer a lookup will find along branches that left the tree *)
Fixpoint fwl (h : heap) (n : nat) (l : loc) (d : nat) (k : K) : option (option elem) :=
  match l with
  | LRoot => None
  | LSlot b i =>
      match rtd h b, mem h b with
      | Some _, BBr f =>
          match fst (f i) with
          | PNull => Some None
          | PLeaf a => Some (sfind k (leafdata h (PLeaf a)))
          | PBr a => match n with 0 => None | S n => fwl h n (LSlot a (chunk_at k d)) (S d) k end
          end
      | _, _ => None
      end
  end.
Definition stt (h : heap) (pos : posn) (p : pc) : athread :=
  match p with
  | Idle => AIdle
  | WLoad m e _ _ _ | WCas m e _ _ _ _ _ => APending (ChtModel.OWrite m e)
  | GLoad k l _ => let d := length (lpath pos l) in match fwl h (16 - d) l d k with Some r => AReady (ChtModel.RElem r) | None => APending (ChtModel.OGet k) end
  | RLoad k l _ _ | RCas k l _ _ _ _ _ => if nul h l then AReady (ChtModel.RElem None) else APending (ChtModel.ODel k)
  | RCount r _ _ _ => AReady (ChtModel.RElem r)
  | Freeze ct _ _ _ | CCas ct _ _ _ =>
      match ct with KWrite m e => APending (ChtModel.OWrite m e) | KDel k => APending (ChtModel.ODel k) | KLoop r _ => AReady (ChtModel.RElem r) end
  | Incr => AReady (ChtModel.RElem None)
  | Decr r => AReady (ChtModel.RElem r)
  | SInit | SRun _ _ => AIdle
  | LLoad => APending ChtModel.OLen
  | Ret r => AReady r
  end.

(** * Scans *)
Definition pre (k : K) (p : list nat) : Prop := p = prefix k (length p).
Definition base (M : amap) (se : elem -> Prop) (al : K -> Prop) : Prop := (forall e, M (fst e) = Some e -> se e) /\ (forall k, al k -> M k <> None).
(** what was in the slots of the branches that left the tree since the scan began *)
Definition gone (h : heap) (pos : posn) (tz : nat) (se : elem -> Prop) (al : K -> Prop) : Prop :=
  forall b f u i k, mem h b = BBr f -> rtd h b = Some u -> tz < u -> i < 16 -> pre k (pos b ++ [i]) ->
  match fst (f i) with
  | PNull => ~ al k
  | PLeaf a => forall d, mem h a = BLeaf d -> (forall e, In e d -> fst e = k -> se e) /\ (sfind k d = None -> ~ al k)
  | PBr _ => True
  end.
Fixpoint rest_ok (h : heap) (pos : posn) (tz : nat) (p : list nat) (r : list (ptr * nat)) : Prop :=
  match r with
  | [] => p = []
  | (PBr b, S j) :: r => j < 16 /\ p = pos b ++ [j] /\ okb h tz b /\ rest_ok h pos tz (pos b) r
  | _ => False
  end.
Definition top_ok (h : heap) (pos : posn) (tz : nat) (se : elem -> Prop) (al : K -> Prop) (p : list nat) (x : ptr) (i : nat) : Prop :=
  match x with
  | PNull => forall k, pre k p -> ~ al k
  | PLeaf a => exists d, mem h a = BLeaf d /\ alive h tz a = true /\ good p d /\ i <= length d /\ (forall e, In e d -> se e) /\ (forall k, pre k p -> al k -> In k (map fst d))
  | PBr a => okb h tz a /\ pos a = p /\ i <= 16
  end.
Fixpoint doner (pos : posn) (k : K) (r : list (ptr * nat)) : Prop :=
  match r with
  | (PBr b, S j) :: r => (pre k (pos b) /\ chunk_at k (length (pos b)) < j) \/ doner pos k r
  | _ => False
  end.
Definition done (h : heap) (pos : posn) (k : K) (sk : list (ptr * nat)) : Prop :=
  match sk with
  | [] => True
  | (PNull, _) :: r => doner pos k r
  | (PLeaf a, i) :: r => In k (map fst (firstn i (leafdata h (PLeaf a)))) \/ doner pos k r
  | (PBr a, i) :: r => (pre k (pos a) /\ chunk_at k (length (pos a)) < i) \/ doner pos k r
  end.
Definition scanok (h : heap) (pos : posn) (pt T : nat) (se : elem -> Prop) (al : K -> Prop) (sk : list (ptr * nat)) (acc : list elem) : Prop :=
  exists tz, pt <= tz /\ tz <= T /\ gone h pos tz se al /\
  match sk with [] => True | (x, i) :: r => exists p, rest_ok h pos tz p r /\ top_ok h pos tz se al p x i end /\
  NoDup (map fst acc) /\ (forall e, In e acc -> se e /\ done h pos (fst e) sk) /\ (forall k, al k -> done h pos k sk -> In k (map fst acc)).

Definition Rel (h : heap) (pos : posn) (pt T : nat) (M : amap) (p : pc) (a : athread) : Prop :=
  match p with
  | SInit => exists se al, a = AScan se al /\ base M se al
  | SRun sk acc => exists se al, a = AScan se al /\ base M se al /\ scanok h pos pt T se al sk acc
  | _ => a = stt h pos p
  end.
Definition scanning (p : pc) : bool := match p with SInit | SRun _ _ => true | _ => false end.
Lemma rel_plain h pos pt T M p a : scanning p = false -> (Rel h pos pt T M p a <-> a = stt h pos p).
Proof. destruct p; cbn; intros E; try discriminate E; reflexivity. Qed.
Lemma stt_plain h pos p se al : stt h pos p <> AScan se al.
Proof.
  destruct p; cbn; try discriminate; try (destruct (fwl _ _ _ _ _); discriminate); try (destruct (nul _ _); discriminate); destruct ct; discriminate.
Qed.
Lemma watch_stt h pos p M : watch M (stt h pos p) = stt h pos p.
Proof. destruct (stt h pos p) eqn:E; try reflexivity. exfalso. exact (stt_plain h pos p _ _ E). Qed.

Lemma top_mono h pos tz (se : elem -> Prop) (al : K -> Prop) (se' : elem -> Prop) (al' : K -> Prop) p x i : (forall e, se e -> se' e) -> (forall k, al' k -> al k) -> top_ok h pos tz se al p x i -> top_ok h pos tz se' al' p x i.
Proof.
  intros S A. destruct x as [|a|a]; cbn; [intros H k P Q; exact (H k P (A k Q))| |auto].
  intros (d & M & L & G & Li & H1 & H2). exists d. repeat split; auto; apply G.
Qed.
Lemma rel_watch h pos pt T M M' p a : Rel h pos pt T M p a -> Rel h pos pt T M' p (watch M' a).
Proof.
  destruct (scanning p) eqn:E.
  - destruct p; try discriminate E; cbn [Rel].
    + intros (se & al & -> & B). do 2 eexists. split; [reflexivity|]. split; [intros e H; right; exact H|intros k H; apply H].
    + intros (se & al & -> & B & tz & L1 & L2 & G & Tp & ND & H1 & H2). do 2 eexists. split; [reflexivity|]. split; [split; [intros e H; right; exact H|intros k H; apply H]|].
      exists tz. split; [exact L1|]. split; [exact L2|]. split; [|split; [|split; [exact ND|split]]].
      * intros b f u i k Mb Rb Lu Li P. specialize (G b f u i k Mb Rb Lu Li P). destruct (fst (f i)) as [|a|a]; [intros (Q & _); exact (G Q)| |exact Logic.I].
        intros d Md. destruct (G d Md) as (G1 & G2). split; [intros e He Hk; left; exact (G1 e He Hk)|intros N (Q & _); exact (G2 N Q)].
      * destruct st as [|(x, i) r]; [exact Logic.I|]. destruct Tp as (p & R & Tp). exists p. split; [exact R|]. revert Tp. apply top_mono; [intros e H; left; exact H|intros k H; apply H].
      * intros e H. destruct (H1 e H) as (A & B'). split; [left; exact A|exact B'].
      * intros k (Q & _). exact (H2 k Q).
  - rewrite !rel_plain by exact E. intros ->. apply watch_stt.
Qed.
Lemma rel_time h pos pt T T' M p a : T <= T' -> Rel h pos pt T M p a -> Rel h pos pt T' M p a.
Proof.
  intros L. destruct p; cbn [Rel]; auto. intros (se & al & E & B & tz & L1 & L2 & H). exists se, al. split; [exact E|]. split; [exact B|]. exists tz. split; [exact L1|]. split; [lia|exact H].
Qed.

(** * After a write to memory *)
Section After.
Variables (T : nat) (h : heap) (pos : posn) (h' : heap) (pos' : posn) (pt : nat).
Hypothesis I : Inv T h pos.
Hypothesis I' : Inv (S T) h' pos'.
Hypothesis X : ext T h pos h' pos'.
Hypothesis PT : pt <= T.

(** a branch that left the tree before, or just now *)
Lemma br_after b f : mem h b = BBr f -> exists f', mem h' b = BBr f' /\ pos' b = pos b /\ (rtd h' b <> None -> forall i, i < 16 -> fst (f' i) = fst (f i)).
Proof. intros M. destruct (e_br _ _ _ _ _ _ _ X b f M) as (P & f' & M' & _ & F). exists f'. auto. Qed.
Lemma leafdata_after a d : mem h a = BLeaf d -> leafdata h' (PLeaf a) = leafdata h (PLeaf a).
Proof. intros M. cbn [leafdata]. rewrite M, (e_leaf _ _ _ _ _ _ _ X a d M). reflexivity. Qed.
Lemma linked_slot b f i : mem h b = BBr f -> rtd h b = None -> i < 16 -> linked h (LSlot b i) /\ content h (LSlot b i) = Some (fst (f i), snd (f i)).
Proof. intros M R Li. split; [split; [exact Li|]; split; [exact R|eauto]|]. cbn. rewrite M. destruct (f i); reflexivity. Qed.

Lemma nul_after k l n : okl h pos pt k l n -> nul h' l = nul h l \/ (nul h l = false /\ nul h' l = true /\ abs h k = None).
Proof.
  intros O. destruct (okl_len T h pos I pt k l n O) as (_ & Li). destruct O as (P & B). destruct l as [|b i]; [left; reflexivity|]. destruct B as ((f & M) & A).
  destruct (br_after b f M) as (f' & M' & Pb & F). cbn [nul]. rewrite M, M'. destruct (e_rtd _ _ _ _ _ _ _ X b) as [E|(E & E')].
  - rewrite E. destruct (rtd h b) as [u|] eqn:R; [|left; reflexivity]. rewrite F; [left; reflexivity|congruence|exact Li].
  - rewrite E, E'. rewrite F; [|congruence|exact Li]. destruct (fst (f i)) eqn:Fi; [|left; reflexivity|left; reflexivity]. right. split; [reflexivity|]. split; [reflexivity|].
    destruct (linked_slot b f i M E Li) as (Lk & C). rewrite (walk_at K V keq hash T h pos I k n (LSlot b i) _ _ Lk C P), Fi. apply walk_null.
Qed.
Lemma fwl_after k : forall n l d, okl h pos pt k l d -> fwl h' n l d k = fwl h n l d k \/ (fwl h n l d k = None /\ fwl h' n l d k = Some (abs h k)).
Proof.
  induction n as [|n IH]; intros l d O; destruct (okl_len T h pos I pt k l d O) as (_ & Li); destruct O as (P & B); (destruct l as [|b i]; [left; reflexivity|]); destruct B as ((f & M) & A);
    destruct (br_after b f M) as (f' & M' & Pb & F); cbn [fwl]; rewrite M, M'; pose proof (slot_child T h pos I pt b f i M A Li) as W.
  - destruct (e_rtd _ _ _ _ _ _ _ X b) as [E|(E & E')].
    + rewrite E. destruct (rtd h b) as [u|] eqn:R; [|left; reflexivity]. rewrite F; [|congruence|exact Li]. left. destruct (fst (f i)) as [|a|a]; try reflexivity.
      destruct W as ((dd & Md & _) & _). rewrite (leafdata_after a dd Md). reflexivity.
    + rewrite E, E'. rewrite F; [|congruence|exact Li]. destruct (linked_slot b f i M E Li) as (Lk & C). pose proof (walk_at K V keq hash T h pos I k d (LSlot b i) _ _ Lk C P) as Wk.
      destruct (fst (f i)) as [|a|a]; [right|right|left; reflexivity].
      * rewrite Wk, walk_null. auto.
      * destruct W as ((dd & Md & _) & _). rewrite Wk, (walk_leaf K V keq hash _ _ _ _ _ dd Md), (leafdata_after a dd Md). cbn [leafdata]. rewrite Md. auto.
  - destruct (e_rtd _ _ _ _ _ _ _ X b) as [E|(E & E')].
    + rewrite E. destruct (rtd h b) as [u|] eqn:R; [|left; reflexivity]. rewrite F; [|congruence|exact Li]. destruct (fst (f i)) as [|a|a]; [left; reflexivity| |].
      * left. destruct W as ((dd & Md & _) & _). rewrite (leafdata_after a dd Md). reflexivity.
      * apply IH. destruct W as (W & Pa & _). split; [|exact W]. cbn [lpath] in P |- *. rewrite Pa, P, prefix_S. reflexivity.
    + rewrite E, E'. rewrite F; [|congruence|exact Li]. destruct (linked_slot b f i M E Li) as (Lk & C). pose proof (walk_at K V keq hash T h pos I k d (LSlot b i) _ _ Lk C P) as Wk.
      destruct (fst (f i)) as [|a|a] eqn:Fi; [right|right|left].
      * rewrite Wk, walk_null. auto.
      * destruct W as ((dd & Md & _) & _). rewrite Wk, (walk_leaf K V keq hash _ _ _ _ _ dd Md), (leafdata_after a dd Md). cbn [leafdata]. rewrite Md. auto.
      * (* the branch below is still in the tree *)
        assert (R' : rtd h' a = None).
        { destruct (v_br _ _ _ _ _ _ I' b f' M') as (_ & W'). specialize (W' i Li). rewrite F, Fi in W'; [|congruence|exact Li]. rewrite E' in W'. destruct W' as ((g' & Mg') & Pa' & _).
          destruct (rtd h' a) as [u|] eqn:Ru; [|reflexivity]. exfalso.
          destruct (linked_valid K V hash T h pos I _ _ _ Lk C) as ((g & Mg) & Pa & Ra). cbn in Ra.
          assert (a = b) by (apply (e_one _ _ _ _ _ _ _ X); congruence). subst a. cbn [lpath] in Pa. apply (f_equal (@length nat)) in Pa. rewrite app_length in Pa. cbn in Pa. lia. }
        destruct n as [|n]; cbn [fwl]; rewrite R'; reflexivity.
Qed.

(** the map at a slot of the tree *)
Lemma slot_map b f i k : mem h b = BBr f -> rtd h b = None -> i < 16 -> pre k (pos b ++ [i]) ->
  match fst (f i) with PNull => abs h k = None | PLeaf a => forall d, mem h a = BLeaf d -> abs h k = sfind k d | PBr _ => True end.
Proof.
  intros M R Li P. destruct (linked_slot b f i M R Li) as (Lk & C). pose proof (walk_at K V keq hash T h pos I k _ (LSlot b i) _ _ Lk C P) as Wk.
  destruct (fst (f i)) as [|a|a]; [rewrite Wk; apply walk_null| |exact Logic.I]. intros d Md. rewrite Wk. apply walk_leaf. exact Md.
Qed.
Lemma good_pre p d e : good p d -> In e d -> pre (fst e) p.
Proof. intros (_ & _ & G & _) E. exact (G e E). Qed.

Lemma rest_after tz : tz <= T -> forall r p, rest_ok h pos tz p r -> rest_ok h' pos' tz p r /\ forall k, doner pos' k r <-> doner pos k r.
Proof.
  intros Lz. induction r as [|(x, j) r IH]; intros p; cbn [rest_ok doner]; [intros ->; split; [reflexivity|tauto]|].
  destruct x as [|a|b]; try tauto. destruct j as [|j]; [tauto|]. intros (Lj & P & B & R). destruct (okb_ext T h pos h' pos' tz X Lz b B) as (B' & Pb). rewrite Pb. destruct (IH _ R) as (R' & D).
  split; [auto|]. intros k. rewrite D. reflexivity.
Qed.
Lemma top_after tz se al p x i : tz <= T -> top_ok h pos tz se al p x i -> top_ok h' pos' tz se al p x i.
Proof.
  intros Lz. destruct x as [|a|a]; cbn [top_ok]; [auto| |].
  - intros (d & M & A & H). exists d. split; [exact (e_leaf _ _ _ _ _ _ _ X a d M)|]. split; [exact (alive_ext T h pos h' pos' tz X Lz a A)|exact H].
  - intros (B & P & L). destruct (okb_ext T h pos h' pos' tz X Lz a B) as (B' & Pb). rewrite Pb. auto.
Qed.
Lemma done_after tz se al p x i r k : tz <= T -> rest_ok h pos tz p r -> top_ok h pos tz se al p x i -> (done h' pos' k ((x, i) :: r) <-> done h pos k ((x, i) :: r)).
Proof.
  intros Lz R Tp. destruct (rest_after tz Lz r p R) as (_ & D). destruct x as [|a|a]; cbn [done]; rewrite D; [reflexivity| |].
  - destruct Tp as (d & M & _). rewrite (leafdata_after a d M). reflexivity.
  - destruct Tp as (B & _). destruct (okb_ext T h pos h' pos' tz X Lz a B) as (_ & ->). reflexivity.
Qed.
Lemma gone_after tz se al M : tz <= T -> (forall k, M k = abs h k) -> base M se al -> gone h pos tz se al -> gone h' pos' tz se al.
Proof.
  intros Lz EM (B1 & B2) G b f' u i k M' R Lu Li P. destruct (e_back _ _ _ _ _ _ _ X b f' M' ltac:(congruence)) as (f & Mb).
  destruct (br_after b f Mb) as (f2 & M2 & Pb & F). rewrite M' in M2. injection M2 as <-. rewrite Pb in P. rewrite (F ltac:(congruence) i Li).
  destruct (v_br _ _ _ _ _ _ I b f Mb) as (_ & W). specialize (W i Li).
  destruct (e_rtd _ _ _ _ _ _ _ X b) as [E|(E & E')].
  - rewrite E in R. specialize (G b f u i k Mb R Lu Li P). destruct (fst (f i)) as [|a|a]; [exact G| |exact Logic.I]. intros d Md. destruct W as ((d0 & M0 & _) & _).
    rewrite (e_leaf _ _ _ _ _ _ _ X a d0 M0) in Md. injection Md as <-. exact (G d0 M0).
  - pose proof (slot_map b f i k Mb E Li P) as SM. destruct (fst (f i)) as [|a|a]; [intros A; apply (B2 k A); rewrite EM; exact SM| |exact Logic.I].
    intros d Md. destruct W as ((d0 & M0 & Gd) & _). rewrite (e_leaf _ _ _ _ _ _ _ X a d0 M0) in Md. injection Md as <-. specialize (SM d0 M0). split.
    + intros e He Hk. apply B1. rewrite EM, Hk, SM, <- Hk. apply sfind_in; [exact keq_ok|apply Gd|exact He].
    + intros N A. apply (B2 k A). rewrite EM, SM. exact N.
Qed.

Lemma rel_after M p a : (forall k, M k = abs h k) -> TI h pos pt p -> Rel h pos pt T M p a ->
  Rel h' pos' pt (S T) M p a \/
  (scanning p = false /\ exists o m1 r, a = APending o /\ mstep M o = Some (m1, r) /\ (forall k, m1 k = M k) /\ stt h' pos' p = AReady (ChtModel.RElem r)).
Proof.
  intros EM Ti Re. destruct (scanning p) eqn:Sc.
  - left. destruct p; try discriminate Sc; cbn [Rel] in *; [exact Re|]. destruct Re as (se & al & -> & B & tz & L1 & L2 & G & Tp & ND & H1 & H2). exists se, al. split; [reflexivity|]. split; [exact B|].
    exists tz. split; [exact L1|]. split; [lia|]. split; [exact (gone_after tz se al M L2 EM B G)|]. destruct st as [|(x, i) r]; [auto|]. destruct Tp as (p & R & Tp).
    split; [exists p; split; [exact (proj1 (rest_after tz L2 r p R))|exact (top_after tz se al p x i L2 Tp)]|]. split; [exact ND|]. split.
    + intros e He. destruct (H1 e He) as (A & D). split; [exact A|]. apply (done_after tz se al p x i r (fst e) L2 R Tp). exact D.
    + intros k A D. apply (H2 k A). apply (done_after tz se al p x i r k L2 R Tp). exact D.
  - rewrite rel_plain in Re by exact Sc. destruct p; try discriminate Sc; cbn [TI] in Ti; try (left; cbn [Rel]; exact Re).
    + (* lookup *) destruct Ti as (n & O & _). pose proof (okl_ext T h pos h' pos' pt X PT _ _ _ O) as O'.
      assert (En : length (lpath pos l) = n) by (rewrite (proj1 O), prefix_len; reflexivity). assert (En' : length (lpath pos' l) = n) by (rewrite (proj1 O'), prefix_len; reflexivity).
      destruct (fwl_after k (16 - n) l n O) as [E|(E & E')]; [left; cbn [Rel stt] in *; rewrite En' , E; rewrite En in Re; exact Re|]. right. split; [reflexivity|].
      cbn [stt] in *. rewrite En, E in Re. exists (ChtModel.OGet k), M, (M k). split; [exact Re|]. split; [reflexivity|]. split; [reflexivity|]. rewrite En', E', EM. reflexivity.
    + destruct Ti as (O & _). destruct (nul_after k l n O) as [E|(E & E' & N)]; [left; cbn [Rel stt] in *; rewrite E; exact Re|]. right. split; [reflexivity|]. cbn [stt] in *. rewrite E in Re.
      exists (ChtModel.ODel k), (del K V keq k M), (M k). split; [exact Re|]. split; [reflexivity|]. split; [|rewrite E', EM, N; reflexivity].
      intros k0. unfold del. destruct (keq k0 k) eqn:Q; [|reflexivity]. apply keq_ok in Q. subst k0. rewrite EM, N. reflexivity.
    + destruct Ti as (O & _). destruct (nul_after k l n O) as [E|(E & E' & N)]; [left; cbn [Rel stt] in *; rewrite E; exact Re|]. right. split; [reflexivity|]. cbn [stt] in *. rewrite E in Re.
      exists (ChtModel.ODel k), (del K V keq k M), (M k). split; [exact Re|]. split; [reflexivity|]. split; [|rewrite E', EM, N; reflexivity].
      intros k0. unfold del. destruct (keq k0 k) eqn:Q; [|reflexivity]. apply keq_ok in Q. subst k0. rewrite EM, N. reflexivity.
Qed.
End After.
End Rel.
