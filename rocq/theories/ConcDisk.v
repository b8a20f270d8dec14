(** C117: what the data file says after statements that ran at the same time. *)
From Coq Require Import List NArith Bool Arith Lia Sorting.Sorted Permutation.
From Verif Require Import DataModel RowModel ConcModel ConcSpec ConcProofs ConcScan.
Import ListNotations.
Local Open Scope nat_scope.

Section Disk.
Variables V F : Type.
Notation cst := (cst V F).
Notation ctask := (ctask V F).
Notation cev := (cev V).
Notation obj := (obj V).

(** ** Events of one key *)
Definition at_key (k : pkey) (H : list cev) : list cev := filter (fun e => pkey_eqb (ce_key e) k) H.
Definition meaning (e : cev) : option (V * N) := match ce_kind e with DkDelete => None | _ => option_map (fun x => (x, ce_ver e)) (ce_val e) end.
Definition told (k : pkey) (H : list cev) : option (V * N) := fold_left (fun _ e => meaning e) (at_key k H) None.
Definition vers (k : pkey) (H : list cev) : list N := map ce_ver (at_key k H).
Definition below (k : pkey) (H : list cev) (v : N) : Prop := Forall (fun x => (x < v)%N) (vers k H).

Lemma eqb_key a b : pkey_eqb a b = true <-> a = b.
Proof.
  destruct (key_dec a b) as [->|D].
  - split; [reflexivity|]. intros _. pose proof (kset_same _ (fun _ => false) b true) as E. unfold kset in E. destruct (pkey_eqb b b); [reflexivity|discriminate E].
  - split; [|congruence]. intros E. pose proof (kset_other _ (fun _ => false) b true a D) as X. unfold kset in X. rewrite E in X. discriminate X.
Qed.
Lemma neqb_key a b : a <> b -> pkey_eqb a b = false.
Proof. intros D. destruct (pkey_eqb a b) eqn:E; [apply eqb_key in E; congruence|reflexivity]. Qed.
Lemma at_key_app k a b : at_key k (a ++ b) = at_key k a ++ at_key k b.
Proof. apply filter_app. Qed.
Lemma at_key_one k e : at_key k [e] = if pkey_eqb (ce_key e) k then [e] else [].
Proof. reflexivity. Qed.
Lemma in_at_key k H e : In e (at_key k H) <-> In e H /\ ce_key e = k.
Proof. unfold at_key. rewrite filter_In, eqb_key. tauto. Qed.
Lemma at_key_snoc_other k H e : ce_key e <> k -> at_key k (H ++ [e]) = at_key k H.
Proof. intros D. rewrite at_key_app, at_key_one, (neqb_key _ _ D). apply app_nil_r. Qed.
Lemma at_key_snoc_same H e : at_key (ce_key e) (H ++ [e]) = at_key (ce_key e) H ++ [e].
Proof. rewrite at_key_app, at_key_one. replace (pkey_eqb (ce_key e) (ce_key e)) with true by (symmetry; apply eqb_key; reflexivity). reflexivity. Qed.
Lemma told_snoc H e : told (ce_key e) (H ++ [e]) = meaning e.
Proof. unfold told. rewrite at_key_snoc_same, fold_left_app. reflexivity. Qed.
Lemma below_all k H v : (forall e, In e H -> (ce_ver e < v)%N) -> below k H v.
Proof. intros A. apply Forall_forall. intros x I. apply in_map_iff in I. destruct I as (e & <- & I). apply in_at_key in I. apply A, I. Qed.
Lemma below_le k H v w : (v <= w)%N -> below k H v -> below k H w.
Proof. intros L. apply Forall_impl. intros; lia. Qed.
Lemma below_snoc H e v : below (ce_key e) H v -> (ce_ver e < v)%N -> below (ce_key e) (H ++ [e]) v.
Proof. intros A B. unfold below, vers. rewrite at_key_snoc_same, map_app. apply Forall_app. split; [exact A|]. repeat constructor. exact B. Qed.
Lemma sorted_snoc l v : StronglySorted N.lt l -> Forall (fun x => (x < v)%N) l -> StronglySorted N.lt (l ++ [v]).
Proof.
  induction 1 as [|x l S1 IH A]; intros B; cbn; [repeat constructor|]. inversion_clear B as [|? ? B1 B2]. constructor; [auto|]. apply Forall_app. split; [exact A|]. repeat constructor. exact B1.
Qed.

(** ** The loader *)
Definition view (t : ltab V) (p : pkey -> option N) (k : pkey) : option (V * N) := l_end t p k.
Definition under (t : ltab V) (p : pkey -> option N) (k : pkey) (l : list N) : Prop :=
  (forall x r, t k = Some (x, r) -> Forall (fun v => (r < v)%N) l) /\ (forall d, p k = Some d -> Forall (fun v => (d < v)%N) l).
Lemma loop_told H : forall t p, (forall e, In e H -> ce_kind e = DkDelete \/ ce_val e <> None) -> (forall k, StronglySorted N.lt (vers k H)) -> (forall k, under t p k (vers k H)) ->
  exists t' p', l_loop t p H = Some (t', p') /\ forall k, view t' p' k = fold_left (fun _ e => meaning e) (at_key k H) (view t p k) /\
    (forall x r, t' k = Some (x, r) -> In r (vers k H) \/ t k = Some (x, r)).
Proof.
  induction H as [|e H IH]; intros t p G S1 U; [exists t, p; cbn; auto|].
  assert (S2 : forall k, StronglySorted N.lt (vers k H)).
  { intros k. specialize (S1 k). unfold vers, at_key in *. cbn in S1. destruct (pkey_eqb (ce_key e) k); [inversion S1; assumption|exact S1]. }
  assert (VK : vers (ce_key e) (e :: H) = ce_ver e :: vers (ce_key e) H).
  { unfold vers, at_key. cbn. replace (pkey_eqb (ce_key e) (ce_key e)) with true by (symmetry; apply eqb_key; reflexivity). reflexivity. }
  assert (VO : forall k, k <> ce_key e -> vers k (e :: H) = vers k H).
  { intros k D. unfold vers, at_key. cbn. rewrite neqb_key by congruence. reflexivity. }
  pose proof (S1 (ce_key e)) as SE. rewrite VK in SE. inversion_clear SE as [|? ? _ UP].
  destruct (U (ce_key e)) as [U1 U2]. rewrite VK in U1, U2.
  assert (GH : forall x, In x H -> ce_kind x = DkDelete \/ ce_val x <> None) by (intros x I; apply G; right; exact I).
  assert (CASE : ce_kind e = DkDelete \/ exists x, ce_val e = Some x /\ ce_kind e <> DkDelete).
  { destruct (G e (or_introl eq_refl)) as [K|K]; [left; exact K|]. destruct (ce_kind e) eqn:KE; [left; reflexivity|right|right]; (destruct (ce_val e) as [x|]; [|congruence]); exists x; split; congruence. }
  assert (AKS : forall k, at_key k (e :: H) = if pkey_eqb (ce_key e) k then e :: at_key k H else at_key k H) by reflexivity.
  destruct CASE as [KE|(x & XE & KE)].
  - (* a deletion *)
    assert (LD : l_del p e = kset p (ce_key e) (Some (ce_ver e))).
    { unfold l_del. destruct (p (ce_key e)) as [d|] eqn:PD; [|reflexivity]. specialize (U2 d eq_refl). inversion_clear U2 as [|? ? A _]. replace (N.ltb (ce_ver e) d) with false by (symmetry; apply N.ltb_ge; lia). reflexivity. }
    destruct (IH t (l_del p e) GH S2) as (t' & p' & E & P).
    { intros k. destruct (key_dec k (ce_key e)) as [->|D].
      - split; [intros y r T; specialize (U1 y r T); inversion U1; assumption|]. intros d. rewrite LD, kset_same. intros [= <-]. exact UP.
      - destruct (U k) as [W1 W2]. rewrite (VO k D) in W1, W2. split; [exact W1|]. rewrite LD, kset_other by exact D. exact W2. }
    exists t', p'. split; [cbn; rewrite KE; exact E|]. intros k. destruct (P k) as [P1 P2]. split.
    + rewrite P1, AKS. destruct (pkey_eqb (ce_key e) k) eqn:KK; cbn.
      * f_equal. apply eqb_key in KK. subst k. unfold meaning. rewrite KE. unfold view, l_end. rewrite LD, kset_same. destruct (t (ce_key e)) as [[y r]|] eqn:T; [|reflexivity].
        specialize (U1 y r eq_refl). inversion_clear U1 as [|? ? A _]. replace (N.ltb (ce_ver e) r) with false by (symmetry; apply N.ltb_ge; lia). reflexivity.
      * f_equal. unfold view, l_end. rewrite LD, kset_other; [reflexivity|]. intros ->. rewrite (proj2 (eqb_key _ _) eq_refl) in KK. discriminate KK.
    + intros y r T. destruct (P2 y r T) as [I|I]; [|right; exact I]. left. destruct (key_dec k (ce_key e)) as [->|D]; [rewrite VK; right; exact I|rewrite VO by exact D; exact I].
  - (* a row *)
    assert (LP : l_put t e = Some (kset t (ce_key e) (Some (x, ce_ver e)))).
    { unfold l_put. rewrite XE. destruct (t (ce_key e)) as [[y r]|] eqn:T; [|reflexivity]. specialize (U1 y r eq_refl). inversion_clear U1 as [|? ? A _]. replace (N.ltb r (ce_ver e)) with true by (symmetry; apply N.ltb_lt; lia). now rewrite orb_true_r. }
    destruct (IH (kset t (ce_key e) (Some (x, ce_ver e))) p GH S2) as (t' & p' & E & P).
    { intros k. destruct (key_dec k (ce_key e)) as [->|D].
      - split; [intros y r; rewrite kset_same; intros [= <- <-]; exact UP|]. intros d X. specialize (U2 d X). inversion U2; assumption.
      - destruct (U k) as [W1 W2]. rewrite (VO k D) in W1, W2. split; [rewrite kset_other by exact D; exact W1|exact W2]. }
    exists t', p'. split; [cbn; rewrite LP; destruct (ce_kind e); [congruence|exact E|exact E]|]. intros k. destruct (P k) as [P1 P2]. split.
    + rewrite P1, AKS. destruct (pkey_eqb (ce_key e) k) eqn:KK; cbn.
      * f_equal. apply eqb_key in KK. subst k. unfold meaning. rewrite XE. cbn. unfold view, l_end. rewrite kset_same. destruct (ce_kind e); try congruence; (destruct (p (ce_key e)) as [d|] eqn:PD; [|reflexivity]);
        (specialize (U2 d eq_refl); inversion_clear U2 as [|? ? A _]; replace (N.ltb d (ce_ver e)) with true by (symmetry; apply N.ltb_lt; lia); reflexivity).
      * f_equal. unfold view, l_end. rewrite kset_other; [reflexivity|]. intros ->. rewrite (proj2 (eqb_key _ _) eq_refl) in KK. discriminate KK.
    + intros y r T. destruct (P2 y r T) as [I|I].
      * left. destruct (key_dec k (ce_key e)) as [->|D]; [rewrite VK; right; exact I|rewrite VO by exact D; exact I].
      * destruct (key_dec k (ce_key e)) as [->|D]; [rewrite kset_same in I; injection I as <- <-; left; rewrite VK; left; reflexivity|]. rewrite kset_other in I by exact D. right. exact I.
Qed.
Lemma sorted_app_l (a b : list N) : StronglySorted N.lt (a ++ b) -> StronglySorted N.lt a /\ StronglySorted N.lt b /\ forall x y, In x a -> In y b -> (x < y)%N.
Proof.
  induction a as [|z a IH]; cbn; intros S1; [split; [constructor|split; [exact S1|intros x y []]]|]. inversion_clear S1 as [|? ? S2 A]. destruct (IH S2) as (B & C & D). apply Forall_app in A. destruct A as [A1 A2].
  split; [constructor; assumption|]. split; [exact C|]. intros x y [<-|I] J; [rewrite Forall_forall in A2; auto|auto].
Qed.
Lemma file_told bs : forall t, (forall e, In e (concat bs) -> ce_kind e = DkDelete \/ ce_val e <> None) -> (forall k, StronglySorted N.lt (vers k (concat bs))) ->
  (forall k x r, t k = Some (x, r) -> Forall (fun v => (r < v)%N) (vers k (concat bs))) ->
  exists t', l_file t bs = Some t' /\ forall k, t' k = fold_left (fun _ e => meaning e) (at_key k (concat bs)) (t k).
Proof.
  induction bs as [|b bs IH]; intros t G S1 U; [exists t; cbn; auto|]. cbn [concat] in *.
  assert (VA : forall k, vers k (b ++ concat bs) = vers k b ++ vers k (concat bs)) by (intros k; unfold vers; rewrite at_key_app, map_app; reflexivity).
  assert (SP : forall k, StronglySorted N.lt (vers k b) /\ StronglySorted N.lt (vers k (concat bs)) /\ forall x y, In x (vers k b) -> In y (vers k (concat bs)) -> (x < y)%N) by (intros k; apply sorted_app_l; rewrite <- VA; apply S1).
  destruct (loop_told b t (fun _ => None)) as (t1 & p1 & E & P).
  { intros e I. apply G, in_app_iff. left. exact I. }
  { intros k. apply SP. }
  { intros k. split; [|intros d D; discriminate D]. intros x r T. specialize (U k x r T). rewrite VA in U. apply Forall_app in U. apply U. }
  destruct (IH (l_end t1 p1)) as (t2 & E2 & P2).
  { intros e I. apply G, in_app_iff. right. exact I. }
  { intros k. apply SP. }
  { intros k x r T. assert (T1 : t1 k = Some (x, r)). { unfold l_end in T. destruct (t1 k) as [[y s]|]; [|discriminate T]. destruct (p1 k) as [d|]; [destruct (N.ltb d s); [exact T|discriminate T]|exact T]. }
    destruct (proj2 (P k) x r T1) as [I|I].
    - apply Forall_forall. intros v J. eapply (proj2 (proj2 (SP k))); eassumption.
    - specialize (U k x r I). rewrite VA in U. apply Forall_app in U. apply U. }
  exists t2. split; [cbn; rewrite E; exact E2|]. intros k. rewrite P2, at_key_app, fold_left_app. f_equal. destruct (P k) as [P1 _]. unfold view in P1. rewrite P1. f_equal. unfold l_end. destruct (t k) as [[y s]|]; reflexivity.
Qed.
Lemma start_told bs : (forall e, In e (concat bs) -> ce_kind e = DkDelete \/ ce_val e <> None) -> (forall k, StronglySorted N.lt (vers k (concat bs))) ->
  exists t, l_start bs = Some t /\ forall k, t k = told k (concat bs).
Proof. intros G S1. destruct (file_told bs (fun _ => None) G S1) as (t & E & P); [intros k x r D; discriminate D|]. exists t. split; [exact E|exact P]. Qed.

(** ** The state of the statements and the events *)
Definition puts (t : ctask) (o : nat) (r : N) : Prop := ct_pc t = PInsQ o r \/ ct_pc t = PUpdQ o r.
Definition dels (t : ctask) (k : pkey) : Prop := ct_st t = CDel k /\ exists o v, ct_pc t = PDelQ o v.
Definition locks (t : ctask) : option nat := match ct_pc t with PUpdLock o | PUpdNum o _ | PUpdQ o _ => Some o | _ => None end.
Definition tok (objs : list obj) (idx : pkey -> option nat) (ver : N) (H : list cev) (t : ctask) : Prop :=
  match ct_st t, ct_pc t with
  | CIns k _, PInsNum v => (v < ver)%N /\ (idx k = None -> below k H v)
  | CIns k _, PInsQ o v => idx k = Some o /\ exists b, nth_error objs o = Some b /\ (v <= ob_rev b)%N /\ (v = ob_rev b -> below k H v)
  | CUpd k _, PUpdRow o | CUpd k _, PUpdLock o => idx k = Some o
  | CUpd k _, PUpdNum o v => (v < ver)%N /\ idx k = Some o /\ below k H v /\ exists b, nth_error objs o = Some b /\ (ob_rev b < v)%N
  | CUpd k _, PUpdQ o v => idx k = Some o /\ below k H v /\ exists b, nth_error objs o = Some b /\ ob_rev b = v
  | CDel k, PDelNum v => (v < ver)%N /\ (idx k <> None -> below k H v)
  | CDel k, PDelQ o v => (v < ver)%N /\ idx k = None /\ below k H v /\ exists b, nth_error objs o = Some b /\ ob_key b = k
  | _, _ => True
  end.
Definition memok (objs : list obj) (idx : pkey -> option nat) (H : list cev) (tasks : list ctask) (k : pkey) : Prop :=
  match idx k with
  | Some o => forall b, nth_error objs o = Some b -> (exists i t, nth_error tasks i = Some t /\ puts t o (ob_rev b)) \/ told k H = Some (ob_val b, ob_rev b)
  | None => (exists i t, nth_error tasks i = Some t /\ dels t k) \/ told k H = None
  end.
Record dinv (objs : list obj) (idx : pkey -> option nat) (ver : N) (H : list cev) (tasks : list ctask) : Prop := mk_dinv {
  d_sort : forall k, StronglySorted N.lt (vers k H);
  d_low : forall e, In e H -> (ce_ver e < ver)%N;
  d_rev : forall o b, nth_error objs o = Some b -> (ob_rev b < ver)%N;
  d_good : forall e, In e H -> ce_kind e = DkDelete \/ ce_val e <> None;
  d_key : forall k o, idx k = Some o -> exists b, nth_error objs o = Some b /\ ob_key b = k;
  d_mem : forall k, memok objs idx H tasks k;
  d_task : forall i t, nth_error tasks i = Some t -> tok objs idx ver H t;
  d_put1 : forall i j t u o r, nth_error tasks i = Some t -> nth_error tasks j = Some u -> puts t o r -> puts u o r -> i = j;
  d_del1 : forall i j t u k, nth_error tasks i = Some t -> nth_error tasks j = Some u -> dels t k -> dels u k -> i = j;
  d_lk : forall i t o, nth_error tasks i = Some t -> locks t = Some o -> exists b, nth_error objs o = Some b /\ ob_lock b = true;
  d_lk1 : forall i j t u o, nth_error tasks i = Some t -> nth_error tasks j = Some u -> locks t = Some o -> locks u = Some o -> i = j;
  d_fit : forall i t, nth_error tasks i = Some t -> fits V F t }.

(** rows that differ in locks only *)
Definition same_rows (a b : list obj) : Prop := forall o x, nth_error a o = Some x -> exists y, nth_error b o = Some y /\ ob_key y = ob_key x /\ ob_val y = ob_val x /\ ob_rev y = ob_rev x.
Lemma same_rows_refl a : same_rows a a.
Proof. intros o x E. eauto. Qed.
Lemma same_rows_rep a o x y : nth_error a o = Some x -> ob_key y = ob_key x -> ob_val y = ob_val x -> ob_rev y = ob_rev x -> same_rows a (rep a o y).
Proof.
  intros E A B C j z Z. destruct (Nat.eq_dec j o) as [->|D].
  - rewrite E in Z. injection Z as <-. exists y. split; [eapply rep_same; exact E|auto].
  - exists z. rewrite (rep_other _ _ _ _ _ y E D). auto.
Qed.
Lemma same_rows_back a b o y : same_rows a b -> length a = length b -> nth_error b o = Some y -> exists x, nth_error a o = Some x /\ ob_key y = ob_key x /\ ob_val y = ob_val x /\ ob_rev y = ob_rev x.
Proof.
  intros A L E. destruct (nth_error a o) as [x|] eqn:X.
  - destruct (A o x X) as (z & Z & Q). rewrite E in Z. injection Z as <-. eauto.
  - exfalso. apply nth_error_None in X. assert (o < length b) by (apply nth_error_Some; congruence). lia.
Qed.
Definition on_key (t : ctask) (k : pkey) : Prop := match ct_st t with CIns j _ | CUpd j _ | CDel j | CSel j => j = k | CAll => False end.

(** a task whose key is not concerned *)
Lemma tok_frame objs objs' idx idx' ver ver' H H' t k : tok objs idx ver H t -> (ver <= ver')%N -> on_key t k -> idx' k = idx k -> vers k H' = vers k H ->
  (forall o b, nth_error objs o = Some b -> (idx k = Some o \/ ob_key b = k) -> exists b', nth_error objs' o = Some b' /\ ob_key b' = ob_key b /\ ob_rev b' = ob_rev b) -> tok objs' idx' ver' H' t.
Proof.
  intros T LE OK IE VE OB. unfold tok, on_key, below in *. destruct (ct_st t); try exact Logic.I; subst k; destruct (ct_pc t); auto; rewrite ?IE, ?VE; try exact T.
  - destruct T as [A B]. split; [lia|exact B].
  - destruct T as (A & b & B & C & D). split; [exact A|]. destruct (OB _ b B (or_introl A)) as (b' & E1 & E2 & E3). exists b'. rewrite E3. auto.
  - destruct T as (A & B & C & b & D & E). split; [lia|]. split; [exact B|]. split; [exact C|]. destruct (OB _ b D (or_introl B)) as (b' & E1 & E2 & E3). exists b'. rewrite E3. auto.
  - destruct T as (A & B & b & C & D). split; [exact A|]. split; [exact B|]. destruct (OB _ b C (or_introl A)) as (b' & E1 & E2 & E3). exists b'. rewrite E3. auto.
  - destruct T as [A B]. split; [lia|exact B].
  - destruct T as (A & B & C & b & D & E). split; [lia|]. split; [exact B|]. split; [exact C|]. destruct (OB _ b D (or_intror E)) as (b' & E1 & E2 & E3). exists b'. rewrite E2. auto.
Qed.
Lemma tok_free objs' idx' ver' H' t : ct_st t = CAll -> tok objs' idx' ver' H' t.
Proof. intros E. unfold tok. rewrite E. exact Logic.I. Qed.
Lemma key_or t : (exists k, on_key t k) \/ ct_st t = CAll.
Proof. unfold on_key. destruct (ct_st t); eauto. Qed.

Section Move.
Variables (objs : list obj) (idx : pkey -> option nat) (ver : N) (H : list cev) (tasks : list ctask) (i : nat) (t : ctask) (pc : cpc V).
Hypothesis DI : dinv objs idx ver H tasks.
Hypothesis N : nth_error tasks i = Some t.
Let t' := mk_ct (ct_st t) (ct_inv t) pc.
Let tasks' := rep tasks i t'.
Hypothesis FT : fits V F t'.

Let AT : forall j x, nth_error tasks' j = Some x -> (j = i /\ x = t') \/ (j <> i /\ nth_error tasks j = Some x).
Proof using N. intros j x. apply rep_at with (y := t). exact N. Qed.
Let HERE : nth_error tasks' i = Some t'.
Proof using N. eapply rep_same. exact N. Qed.
Let THERE : forall j x, j <> i -> nth_error tasks j = Some x -> nth_error tasks' j = Some x.
Proof using N. intros j x J X. unfold tasks'. rewrite (rep_other _ _ _ _ _ t' N J). exact X. Qed.
Let FITS : forall j x, nth_error tasks' j = Some x -> fits V F x.
Proof using N FT DI. intros j x X. destruct (AT _ _ X) as [[-> ->]|[_ Y]]; [exact FT|eapply d_fit; eassumption]. Qed.

(** locks *)
Lemma lk_move (objs' : list obj) : (forall o b, nth_error objs o = Some b -> ob_lock b = true -> (exists b', nth_error objs' o = Some b' /\ ob_lock b' = true) \/ locks t = Some o) ->
  (forall o, locks t' = Some o -> (exists b, nth_error objs' o = Some b /\ ob_lock b = true) /\ (locks t = Some o \/ exists b, nth_error objs o = Some b /\ ob_lock b = false)) ->
  (forall j x o, nth_error tasks' j = Some x -> locks x = Some o -> exists b, nth_error objs' o = Some b /\ ob_lock b = true) /\
  (forall a b x y o, nth_error tasks' a = Some x -> nth_error tasks' b = Some y -> locks x = Some o -> locks y = Some o -> a = b).
Proof using N DI.
  intros A B. split.
  - intros j x o X Y. destruct (AT _ _ X) as [[-> ->]|[J Z]]; [apply (B o Y)|]. destruct (d_lk _ _ _ _ _ DI j x o Z Y) as (b & E1 & E2). destruct (A o b E1 E2) as [E3|E3]; [exact E3|]. exfalso. apply J. eapply (d_lk1 _ _ _ _ _ DI); eassumption.
  - assert (ONE : forall j y o, j <> i -> nth_error tasks j = Some y -> locks y = Some o -> locks t' = Some o -> False).
    { intros j y o J Z Y X. destruct (B o X) as [_ [E|(b & E1 & E2)]].
      - apply J. eapply (d_lk1 _ _ _ _ _ DI); eassumption.
      - destruct (d_lk _ _ _ _ _ DI j y o Z Y) as (b' & E3 & E4). congruence. }
    intros a b x y o X Y LX LY. destruct (AT _ _ X) as [[-> ->]|[J Z]], (AT _ _ Y) as [[-> ->]|[J' Z']]; [reflexivity| | |eapply (d_lk1 _ _ _ _ _ DI); eassumption].
    + exfalso. eapply ONE; eassumption.
    + exfalso. eapply ONE; eassumption.
Qed.
Lemma put_move : (forall o r, puts t' o r -> puts t o r \/ forall j x, j <> i -> nth_error tasks j = Some x -> ~ puts x o r) ->
  forall a b x y o r, nth_error tasks' a = Some x -> nth_error tasks' b = Some y -> puts x o r -> puts y o r -> a = b.
Proof using N DI.
  intros A a b x y o r X Y PX PY. destruct (AT _ _ X) as [[-> ->]|[J Z]], (AT _ _ Y) as [[-> ->]|[J' Z']]; [reflexivity| | |eapply (d_put1 _ _ _ _ _ DI); eassumption].
  - destruct (A o r PX) as [E|E]; [eapply (d_put1 _ _ _ _ _ DI); eassumption|exfalso; eapply E; eassumption].
  - destruct (A o r PY) as [E|E]; [eapply (d_put1 _ _ _ _ _ DI); eassumption|exfalso; eapply E; eassumption].
Qed.
Lemma del_move : (forall k, dels t' k -> dels t k \/ forall j x, j <> i -> nth_error tasks j = Some x -> ~ dels x k) ->
  forall a b x y k, nth_error tasks' a = Some x -> nth_error tasks' b = Some y -> dels x k -> dels y k -> a = b.
Proof using N DI.
  intros A a b x y k X Y PX PY. destruct (AT _ _ X) as [[-> ->]|[J Z]], (AT _ _ Y) as [[-> ->]|[J' Z']]; [reflexivity| | |eapply (d_del1 _ _ _ _ _ DI); eassumption].
  - destruct (A k PX) as [E|E]; [eapply (d_del1 _ _ _ _ _ DI); eassumption|exfalso; eapply E; eassumption].
  - destruct (A k PY) as [E|E]; [eapply (d_del1 _ _ _ _ _ DI); eassumption|exfalso; eapply E; eassumption].
Qed.

(** ** Steps that tell nothing *)
Lemma dinv_quiet (objs' : list obj) ver' : same_rows objs objs' -> length objs = length objs' -> (ver <= ver')%N -> tok objs' idx ver' H t' ->
  (forall o r, ~ puts t' o r) -> (forall k, ~ dels t' k) -> (forall k, ~ dels t k) -> (forall o r b, puts t o r -> nth_error objs o = Some b -> r <> ob_rev b) ->
  (forall o b, nth_error objs o = Some b -> ob_lock b = true -> (exists b', nth_error objs' o = Some b' /\ ob_lock b' = true) \/ locks t = Some o) ->
  (forall o, locks t' = Some o -> (exists b, nth_error objs' o = Some b /\ ob_lock b = true) /\ (locks t = Some o \/ exists b, nth_error objs o = Some b /\ ob_lock b = false)) ->
  dinv objs' idx ver' H tasks'.
Proof using N DI FT.
  intros SR LE VE TK NP ND ND0 NR L1 L2. destruct (lk_move objs' L1 L2) as [LA LB]. pose proof DI as [D1 D2 D3 D4 D5 D6 D7 D8 D9 D10 D11 D12]. constructor; auto.
  - intros e I. specialize (D2 e I). lia.
  - intros o b E. destruct (same_rows_back _ _ _ _ SR LE E) as (x & X & _ & _ & R). specialize (D3 o x X). rewrite R. lia.
  - intros k o X. destruct (D5 k o X) as (b & E & K). destruct (SR o b E) as (y & Y & Q & _). exists y. split; congruence.
  - intros k. specialize (D6 k). unfold memok in *. destruct (idx k) as [o|].
    + intros b E. destruct (same_rows_back _ _ _ _ SR LE E) as (x & X & Q1 & Q2 & Q3). rewrite Q2, Q3. destruct (D6 x X) as [(j & u & U & P)|T]; [|right; exact T]. left. destruct (Nat.eq_dec j i) as [->|J].
      * exfalso. rewrite N in U. injection U as <-. eapply NR; [exact P|exact X|reflexivity].
      * exists j, u. auto.
    + destruct D6 as [(j & u & U & P)|T]; [|right; exact T]. left. destruct (Nat.eq_dec j i) as [->|J]; [|exists j, u; auto]. exfalso. rewrite N in U. injection U as <-. eapply ND0; exact P.
  - intros j x X. destruct (AT _ _ X) as [[-> ->]|[J Z]]; [exact TK|]. destruct (key_or x) as [(k & K)|K]; [|eapply tok_free; eassumption].
    eapply tok_frame; [eapply D7; exact Z|exact VE|exact K|reflexivity|reflexivity|]. intros o b E _. destruct (SR o b E) as (y & Y & Q1 & _ & Q2). eauto.
  - apply put_move. intros o r P. exfalso. eapply NP; exact P.
  - apply del_move. intros k P. exfalso. eapply ND; exact P.
Qed.

(** ** A change of a row goes into the queue *)
Definition busy_del (k : pkey) : Prop := exists j x, j <> i /\ nth_error tasks j = Some x /\ ct_st x = CDel k /\ ct_pc x <> PNew /\ (forall a m, ct_pc x <> PDone a m).
Definition busy_put (k : pkey) : Prop := exists j x, j <> i /\ nth_error tasks j = Some x /\ ((exists v, ct_st x = CIns k v) \/ (exists f, ct_st x = CUpd k f)) /\ ct_pc x <> PNew /\ (forall a m, ct_pc x <> PDone a m).
Lemma dinv_tell (objs' : list obj) e o b k : same_rows objs objs' -> length objs = length objs' -> idx k = Some o -> nth_error objs o = Some b -> puts t o (ob_rev b) -> below k H (ob_rev b) ->
  ce_key e = k -> ce_ver e = ob_rev b -> ce_val e = Some (ob_val b) -> ce_kind e <> DkDelete -> (exists a m, pc = PDone a m) -> ~ busy_del k ->
  (forall o b, nth_error objs o = Some b -> ob_lock b = true -> (exists b', nth_error objs' o = Some b' /\ ob_lock b' = true) \/ locks t = Some o) ->
  dinv objs' idx ver (H ++ [e]) tasks'.
Proof using N DI FT.
  intros SR LE IK NO PT BL KE VE XE NE (da & dm & PD) NB L1.
  assert (L2 : forall o, locks t' = Some o -> (exists b, nth_error objs' o = Some b /\ ob_lock b = true) /\ (locks t = Some o \/ exists b, nth_error objs o = Some b /\ ob_lock b = false)) by (unfold locks, t'; cbn; rewrite PD; intros ? X; discriminate X).
  destruct (lk_move objs' L1 L2) as [LA LB]. pose proof DI as [D1 D2 D3 D4 D5 D6 D7 D8 D9 D10 D11 D12].
  assert (VO : forall j, j <> k -> vers j (H ++ [e]) = vers j H) by (intros j J; unfold vers; rewrite at_key_snoc_other by congruence; reflexivity).
  constructor; auto.
  - intros j. destruct (key_dec j k) as [->|J]; [|rewrite VO by exact J; apply D1]. subst k. unfold vers. rewrite at_key_snoc_same, map_app. apply sorted_snoc; [apply D1|]. rewrite VE. exact BL.
  - intros x I. apply in_app_iff in I. destruct I as [I|[<-|[]]]; [apply D2, I|]. rewrite VE. eapply D3; exact NO.
  - intros o' x E. destruct (same_rows_back _ _ _ _ SR LE E) as (y & X & _ & _ & R). rewrite R. eapply D3; exact X.
  - intros x I. apply in_app_iff in I. destruct I as [I|[<-|[]]]; [apply D4, I|]. right. congruence.
  - intros j o' X. destruct (D5 j o' X) as (x & E & K). destruct (SR o' x E) as (y & Y & Q & _). exists y. split; congruence.
  - intros j. destruct (key_dec j k) as [->|J].
    + unfold memok. rewrite IK. intros x X. destruct (same_rows_back _ _ _ _ SR LE X) as (y & Y & Q1 & Q2 & Q3). rewrite NO in Y. injection Y as <-. right. subst k. rewrite told_snoc. unfold meaning. rewrite XE, VE, Q2, Q3. cbn. destruct (ce_kind e); congruence.
    + specialize (D6 j). unfold memok in *. assert (TO : told j (H ++ [e]) = told j H) by (unfold told; rewrite at_key_snoc_other by congruence; reflexivity). rewrite TO. destruct (idx j) as [o'|] eqn:IJ.
      * intros x E. destruct (same_rows_back _ _ _ _ SR LE E) as (y & X & Q1 & Q2 & Q3). rewrite Q2, Q3. destruct (D6 y X) as [(a & u & U & P)|T]; [|right; exact T]. left. destruct (Nat.eq_dec a i) as [->|A].
        -- exfalso. rewrite N in U. injection U as <-. assert (o' = o) by (destruct PT as [PT|PT], P as [P|P]; congruence). subst o'. destruct (D5 _ _ IK) as (z & Z & ZK). destruct (D5 _ _ IJ) as (w & W & WK). congruence.
        -- exists a, u. auto.
      * destruct D6 as [(a & u & U & P)|T]; [|right; exact T]. left. destruct (Nat.eq_dec a i) as [->|A]; [|exists a, u; auto]. exfalso. rewrite N in U. injection U as <-. destruct P as (_ & o2 & v2 & P). destruct PT as [PT|PT]; congruence.
  - intros j x X. destruct (AT _ _ X) as [[-> ->]|[J Z]]; [unfold tok, t'; cbn; rewrite PD; destruct (ct_st t); exact Logic.I|].
    pose proof (D7 j x Z) as T. pose proof (D12 j x Z) as FX. destruct (key_or x) as [(k2 & K2)|K2]; [|eapply tok_free; eassumption].
    destruct (key_dec k2 k) as [->|KN].
    2: { eapply tok_frame; [exact T|lia|exact K2|reflexivity|apply VO; exact KN|]. intros o2 b2 E _. destruct (SR o2 b2 E) as (y & Y & Q1 & _ & Q2). eauto. }
    assert (NP : ~ puts x o (ob_rev b)) by (intros P; apply J; eapply (D8 j i); eassumption).
    destruct (SR o b NO) as (b' & NO' & Q1 & _ & Q2).
    unfold tok, on_key, fits, puts in *. destruct (ct_st x) eqn:SX; subst; destruct (ct_pc x) eqn:PX; auto; try contradiction.
    + destruct T as [T1 T2]. split; [exact T1|]. congruence.
    + destruct T as (T1 & b2 & T2 & T3 & T4). split; [exact T1|]. rewrite IK in T1. injection T1 as <-. rewrite NO in T2. injection T2 as <-. exists b'. split; [exact NO'|]. rewrite Q2. split; [exact T3|]. intros ->. exfalso. apply NP. auto.
    + destruct T as (T1 & T2 & T3 & b2 & T4 & T5). rewrite IK in T2. injection T2 as <-. rewrite NO in T4. injection T4 as <-. split; [exact T1|]. split; [exact IK|]. split; [apply below_snoc; [exact T3|rewrite VE; exact T5]|]. exists b'. rewrite Q2. auto.
    + destruct T as (T1 & T2 & b2 & T3 & T4). rewrite IK in T1. injection T1 as <-. rewrite NO in T3. injection T3 as <-. exfalso. apply NP. right. congruence.
    + exfalso. apply NB. exists j, x. rewrite SX, PX. repeat split; auto; intros; discriminate.
    + destruct T as (_ & T2 & _). congruence.
  - apply put_move. intros o' r P. exfalso. unfold puts, t' in P. cbn in P. rewrite PD in P. destruct P as [P|P]; discriminate P.
  - apply del_move. intros k' P. exfalso. destruct P as (_ & o2 & v2 & P). unfold t' in P. cbn in P. congruence.
Qed.

(** a deletion goes into the queue *)
Lemma dinv_tell_del e o v k b : ct_st t = CDel k -> ct_pc t = PDelQ o v -> nth_error objs o = Some b -> ob_key b = k -> e = mk_cev DkDelete v k None -> (exists a m, pc = PDone a m) -> ~ busy_put k ->
  dinv objs idx ver (H ++ [e]) tasks'.
Proof using N DI FT.
  intros SE PE NO KB -> (da & dm & PD) NB. set (e := mk_cev DkDelete v k None).
  assert (L1 : forall o b, nth_error objs o = Some b -> ob_lock b = true -> (exists b', nth_error objs o = Some b' /\ ob_lock b' = true) \/ locks t = Some o) by eauto.
  assert (L2 : forall o, locks t' = Some o -> (exists b, nth_error objs o = Some b /\ ob_lock b = true) /\ (locks t = Some o \/ exists b, nth_error objs o = Some b /\ ob_lock b = false)) by (unfold locks, t'; cbn; rewrite PD; intros ? X; discriminate X).
  destruct (lk_move objs L1 L2) as [LA LB]. pose proof DI as [D1 D2 D3 D4 D5 D6 D7 D8 D9 D10 D11 D12].
  pose proof (D7 i t N) as T0'. unfold tok in T0'. rewrite SE, PE in T0'. destruct T0' as (V1 & IK & BL & _).
  assert (VO : forall j, j <> k -> vers j (H ++ [e]) = vers j H) by (intros j J; unfold vers; rewrite at_key_snoc_other by (cbn; congruence); reflexivity).
  constructor; auto.
  - intros j. destruct (key_dec j k) as [->|J]; [|rewrite VO by exact J; apply D1]. unfold vers. change k with (ce_key e) at 1. rewrite at_key_snoc_same, map_app. apply sorted_snoc; [apply D1|]. exact BL.
  - intros x I. apply in_app_iff in I. destruct I as [I|[<-|[]]]; [apply D2, I|]. exact V1.
  - intros x I. apply in_app_iff in I. destruct I as [I|[<-|[]]]; [apply D4, I|]. left. reflexivity.
  - intros j. destruct (key_dec j k) as [->|J].
    + unfold memok. rewrite IK. right. change k with (ce_key e). rewrite told_snoc. reflexivity.
    + specialize (D6 j). unfold memok in *. assert (TO : told j (H ++ [e]) = told j H) by (unfold told; rewrite at_key_snoc_other by (cbn; congruence); reflexivity). rewrite TO. destruct (idx j) as [o'|] eqn:IJ.
      * intros x E. destruct (D6 x E) as [(a & u & U & P)|T]; [|right; exact T]. left. destruct (Nat.eq_dec a i) as [->|A]; [|exists a, u; auto].
        exfalso. rewrite N in U. injection U as <-. destruct P as [P|P]; congruence.
      * destruct D6 as [(a & u & U & P)|T]; [|right; exact T]. left. destruct (Nat.eq_dec a i) as [->|A]; [|exists a, u; auto]. exfalso. rewrite N in U. injection U as <-. destruct P as (P & _). congruence.
  - intros j x X. destruct (AT _ _ X) as [[-> ->]|[J Z]]; [unfold tok, t'; cbn; rewrite PD; destruct (ct_st t); exact Logic.I|].
    pose proof (D7 j x Z) as T. pose proof (D12 j x Z) as FX. destruct (key_or x) as [(k2 & K2)|K2]; [|eapply tok_free; eassumption].
    destruct (key_dec k2 k) as [->|KN].
    2: { eapply tok_frame; [exact T|lia|exact K2|reflexivity|apply VO; exact KN|]. intros o2 b2 E _. eauto. }
    assert (ND : ~ dels x k) by (intros P; apply J; eapply (D9 j i); [exact Z|exact N|exact P|]; split; eauto).
    unfold tok, on_key, fits, dels in *. destruct (ct_st x) eqn:SX; try contradiction; try rewrite K2 in T, SX |- *; destruct (ct_pc x) eqn:PX; auto; try contradiction;
      try (exfalso; apply NB; exists j, x; rewrite SX, PX; repeat split; eauto; intros; discriminate).
    + destruct T as [T1 T2]. split; [exact T1|]. congruence.
    + exfalso. apply ND. split; [congruence|eauto].
  - apply put_move. intros o' r P. exfalso. unfold puts, t' in P. cbn in P. rewrite PD in P. destruct P as [P|P]; discriminate P.
  - apply del_move. intros k' P. exfalso. destruct P as (_ & o2 & v2 & P). unfold t' in P. cbn in P. congruence.
Qed.

(** a row goes into the index *)
Lemma dinv_insert k x v : ct_st t = CIns k x -> ct_pc t = PInsNum v -> idx k = None -> pc = PInsQ (length objs) v -> ~ busy_del k ->
  dinv (objs ++ [mk_obj k x v false None]) (kset idx k (Some (length objs))) ver H tasks'.
Proof using N DI FT.
  intros SE PE IK PC NB. set (objs' := objs ++ [mk_obj k x v false None]).
  assert (OLD : forall o b, nth_error objs o = Some b -> nth_error objs' o = Some b).
  { intros o b E. unfold objs'. rewrite nth_error_app1; [exact E|]. apply nth_error_Some. congruence. }
  assert (NEW : nth_error objs' (length objs) = Some (mk_obj k x v false None)) by (unfold objs'; rewrite nth_error_app2, Nat.sub_diag by lia; reflexivity).
  destruct (lk_move objs') as [LA LB]; [eauto|unfold locks, t'; cbn; rewrite PC; intros ? X; discriminate X|]. pose proof DI as [D1 D2 D3 D4 D5 D6 D7 D8 D9 D10 D11 D12].
  pose proof (D7 i t N) as TT. unfold tok in TT. rewrite SE, PE in TT. destruct TT as [V1 BL]. specialize (BL IK).
  constructor; auto.
  - intros o b E. apply nth_snoc in E. destruct E as [E|[_ ->]]; [eapply D3; exact E|exact V1].
  - intros j o X. destruct (key_dec j k) as [->|J].
    + rewrite kset_same in X. injection X as <-. eexists. split; [exact NEW|reflexivity].
    + rewrite kset_other in X by exact J. destruct (D5 j o X) as (b & E & K). eauto.
  - intros j. unfold memok. destruct (key_dec j k) as [->|J].
    + rewrite kset_same. intros b E. rewrite NEW in E. injection E as <-. left. exists i, t'. split; [exact HERE|]. left. exact PC.
    + rewrite kset_other by exact J. specialize (D6 j). unfold memok in D6. destruct (idx j) as [o|] eqn:IJ.
      * intros b E. destruct (D5 j o IJ) as (b0 & E0 & _). rewrite (OLD _ _ E0) in E. injection E as <-. destruct (D6 b0 E0) as [(a & u & U & P)|T]; [|right; exact T]. left. destruct (Nat.eq_dec a i) as [->|A]; [|exists a, u; auto].
        exfalso. rewrite N in U. injection U as <-. destruct P as [P|P]; congruence.
      * destruct D6 as [(a & u & U & P)|T]; [|right; exact T]. left. destruct (Nat.eq_dec a i) as [->|A]; [|exists a, u; auto]. exfalso. rewrite N in U. injection U as <-. destruct P as (P & _). congruence.
  - intros j y Y. destruct (AT _ _ Y) as [[-> ->]|[J Z]].
    + unfold tok, t'. cbn. rewrite SE, PC, kset_same. split; [reflexivity|]. eexists. split; [exact NEW|]. cbn. split; [lia|]. intros _. exact BL.
    + pose proof (D7 j y Z) as T. pose proof (D12 j y Z) as FX. destruct (key_or y) as [(k2 & K2)|K2]; [|eapply tok_free; eassumption].
      destruct (key_dec k2 k) as [->|KN].
      2: { eapply tok_frame; [exact T|lia|exact K2|apply kset_other; exact KN|reflexivity|]. intros o2 b2 E _. eauto. }
      unfold tok, on_key, fits in *. destruct (ct_st y) eqn:SX; try contradiction; try rewrite K2 in T, SX |- *; destruct (ct_pc y) eqn:PX; auto; try contradiction;
        try (exfalso; apply NB; exists j, y; rewrite SX, PX; repeat split; auto; intros; discriminate); try congruence.
      * destruct T as [T1 T2]. split; [exact T1|]. rewrite kset_same. intros X. discriminate X.
      * destruct T as [T1 _]. congruence.
      * destruct T as (_ & T1 & _). congruence.
      * destruct T as (T1 & _). congruence.
  - apply put_move. intros o r P. right. intros j y J Z P2. assert (o = length objs) by (unfold puts, t' in P; cbn in P; rewrite PC in P; destruct P as [P|P]; congruence). subst o.
    pose proof (D7 j y Z) as T. pose proof (D12 j y Z) as FX. unfold tok, fits in *. destruct P2 as [P2|P2]; rewrite P2 in *; destruct (ct_st y); try contradiction.
    + destruct T as (_ & b & T & _). assert (length objs < length objs) by (apply nth_error_Some; congruence). lia.
    + destruct T as (_ & _ & b & T & _). assert (length objs < length objs) by (apply nth_error_Some; congruence). lia.
  - apply del_move. intros k' P. exfalso. destruct P as (P & _). unfold t' in P. cbn in P. congruence.
Qed.

(** a row is taken out of the index *)
Lemma dinv_delete k o v b b' : ct_st t = CDel k -> ct_pc t = PDelNum v -> idx k = Some o -> nth_error objs o = Some b -> pc = PDelQ o v -> ~ busy_put k ->
  ob_key b' = ob_key b -> ob_val b' = ob_val b -> ob_rev b' = ob_rev b -> ob_lock b' = ob_lock b -> dinv (rep objs o b') (kset idx k None) ver H tasks'.
Proof using N DI FT.
  intros SE PE IK NO PC NB K' V' R' L'. pose proof (same_rows_rep _ _ _ _ NO K' V' R') as SR.
  assert (LE : length objs = length (rep objs o b')) by (symmetry; apply rep_length; apply nth_error_Some; congruence).
  destruct (lk_move (rep objs o b')) as [LA LB].
  { intros j y E L. left. destruct (Nat.eq_dec j o) as [->|J]; [|exists y; rewrite (rep_other _ _ _ _ _ b' NO J); auto]. exists b'. split; [eapply rep_same; exact NO|congruence]. }
  { unfold locks, t'; cbn; rewrite PC; intros ? X; discriminate X. }
  pose proof DI as [D1 D2 D3 D4 D5 D6 D7 D8 D9 D10 D11 D12].
  pose proof (D7 i t N) as TT. unfold tok in TT. rewrite SE, PE in TT. destruct TT as [V1 BL]. assert (BK : below k H v) by (apply BL; congruence). destruct (D5 k o IK) as (b0 & E0 & KB). rewrite NO in E0. injection E0 as <-.
  constructor; auto.
  - intros j y E. destruct (same_rows_back _ _ _ _ SR LE E) as (x & X & _ & _ & R). rewrite R. eapply D3; exact X.
  - intros j o' X. destruct (key_dec j k) as [->|J]; [rewrite kset_same in X; discriminate X|]. rewrite kset_other in X by exact J. destruct (D5 j o' X) as (y & E & K). destruct (SR o' y E) as (z & Z & Q & _). exists z. split; congruence.
  - intros j. unfold memok. destruct (key_dec j k) as [->|J].
    + rewrite kset_same. left. exists i, t'. split; [exact HERE|]. split; [exact SE|]. exists o, v. exact PC.
    + rewrite kset_other by exact J. specialize (D6 j). unfold memok in D6. destruct (idx j) as [o'|] eqn:IJ.
      * intros y E. destruct (same_rows_back _ _ _ _ SR LE E) as (x & X & Q1 & Q2 & Q3). rewrite Q2, Q3. destruct (D6 x X) as [(a & u & U & P)|T]; [|right; exact T]. left. destruct (Nat.eq_dec a i) as [->|A]; [|exists a, u; auto].
        exfalso. rewrite N in U. injection U as <-. destruct P as [P|P]; congruence.
      * destruct D6 as [(a & u & U & P)|T]; [|right; exact T]. left. destruct (Nat.eq_dec a i) as [->|A]; [|exists a, u; auto]. exfalso. rewrite N in U. injection U as <-. destruct P as (P & _). congruence.
  - intros j y Y. destruct (AT _ _ Y) as [[-> ->]|[J Z]].
    + unfold tok, t'. cbn. rewrite SE, PC, kset_same. split; [exact V1|]. split; [reflexivity|]. split; [exact BK|]. exists b'. split; [eapply rep_same; exact NO|congruence].
    + pose proof (D7 j y Z) as T. pose proof (D12 j y Z) as FX. destruct (key_or y) as [(k2 & K2)|K2]; [|eapply tok_free; eassumption].
      destruct (key_dec k2 k) as [->|KN].
      2: { eapply tok_frame; [exact T|lia|exact K2|apply kset_other; exact KN|reflexivity|]. intros o2 b2 E _. destruct (SR o2 b2 E) as (z & Z' & Q1 & _ & Q2). eauto. }
      unfold tok, on_key, fits in *. destruct (ct_st y) eqn:SX; try contradiction; try rewrite K2 in T, SX |- *; destruct (ct_pc y) eqn:PX; auto; try contradiction;
        try (exfalso; apply NB; exists j, y; rewrite SX, PX; repeat split; eauto; intros; discriminate).
      * destruct T as [T1 T2]. split; [exact T1|]. rewrite kset_same. intros X. congruence.
      * destruct T as (_ & T1 & _). congruence.
  - apply put_move. intros o' r P. exfalso. unfold puts, t' in P. cbn in P. rewrite PC in P. destruct P as [P|P]; discriminate P.
  - apply del_move. intros k' P. right. intros j y J Z (P2 & o2 & v2 & P3). destruct P as (P & _). unfold t' in P. cbn in P. rewrite SE in P. injection P as <-.
    pose proof (D7 j y Z) as T. unfold tok in T. rewrite P2, P3 in T. destruct T as (_ & T & _). congruence.
Qed.

(** a row is changed *)
Lemma dinv_update H' k f o v b b' : ct_st t = CUpd k f -> ct_pc t = PUpdNum o v -> nth_error objs o = Some b -> pc = PUpdQ o v -> ~ busy_del k ->
  ob_key b' = ob_key b -> ob_rev b' = v -> ob_lock b' = ob_lock b ->
  (forall j, j <> k -> at_key j H' = at_key j H) -> StronglySorted N.lt (vers k H') -> (forall e, In e H' -> In e H) -> dinv (rep objs o b') idx ver H' tasks'.
Proof using N DI FT.
  intros SE PE NO PC NB K' R' L' HO HS HI.
  destruct (lk_move (rep objs o b')) as [LA LB].
  { intros j y E L. left. destruct (Nat.eq_dec j o) as [->|J]; [|exists y; rewrite (rep_other _ _ _ _ _ b' NO J); auto]. exists b'. split; [eapply rep_same; exact NO|congruence]. }
  { unfold locks, t'; cbn; rewrite PC. intros j X. injection X as <-. split; [|left; rewrite PE; reflexivity]. exists b'. split; [eapply rep_same; exact NO|]. destruct (d_lk _ _ _ _ _ DI i t o N) as (z & Z & LZ); [unfold locks; rewrite PE; reflexivity|]. congruence. }
  pose proof DI as [D1 D2 D3 D4 D5 D6 D7 D8 D9 D10 D11 D12].
  pose proof (D7 i t N) as TT. unfold tok in TT. rewrite SE, PE in TT. destruct TT as (V1 & IK & BL & b0 & E0 & RB). rewrite NO in E0. injection E0 as <-. destruct (D5 k o IK) as (b0 & E0 & KB). rewrite NO in E0. injection E0 as <-.
  assert (VO : forall j, j <> k -> vers j H' = vers j H) by (intros j J; unfold vers; rewrite HO by exact J; reflexivity).
  assert (BLW : forall w, below k H w -> below k H' w).
  { intros w B. unfold below in *. rewrite Forall_forall in *. intros x I. apply in_map_iff in I. destruct I as (e & <- & I). apply in_at_key in I. destruct I as [I1 I2]. apply B. apply in_map. apply in_at_key. auto. }
  assert (REP : forall j y, nth_error (rep objs o b') j = Some y -> (j = o /\ y = b') \/ (j <> o /\ nth_error objs j = Some y)) by (intros j y E; eapply rep_at; [exact NO|exact E]).
  assert (HELD : forall j y, j <> i -> nth_error tasks j = Some y -> locks y = Some o -> False).
  { intros j y J Z L. apply J. eapply (D11 j i); [exact Z|exact N|exact L|]. unfold locks. now rewrite PE. }
  constructor; auto.
  - intros j. destruct (key_dec j k) as [->|J]; [exact HS|rewrite VO by exact J; apply D1].
  - intros j y E. destruct (REP j y E) as [[-> ->]|[J Z]]; [rewrite R'; exact V1|eapply D3; exact Z].
  - intros j o' X. destruct (D5 j o' X) as (y & E & K). destruct (Nat.eq_dec o' o) as [->|O].
    + exists b'. split; [eapply rep_same; exact NO|congruence].
    + exists y. rewrite (rep_other _ _ _ _ _ b' NO O). auto.
  - intros j. unfold memok. destruct (key_dec j k) as [->|J].
    + rewrite IK. intros y E. left. exists i, t'. split; [exact HERE|]. destruct (REP _ _ E) as [[_ ->]|[X _]]; [|congruence]. rewrite R'. right. exact PC.
    + specialize (D6 j). unfold memok in D6. assert (TO : told j H' = told j H) by (unfold told; rewrite HO by exact J; reflexivity). rewrite TO. destruct (idx j) as [o'|] eqn:IJ.
      * intros y E. destruct (REP _ _ E) as [[-> ->]|[X Z]]; [exfalso; destruct (D5 _ _ IJ) as (z & Z & ZK); congruence|]. destruct (D6 y Z) as [(a & u & U & P)|T]; [|right; exact T]. left. destruct (Nat.eq_dec a i) as [->|A]; [|exists a, u; auto].
        exfalso. rewrite N in U. injection U as <-. destruct P as [P|P]; congruence.
      * destruct D6 as [(a & u & U & P)|T]; [|right; exact T]. left. destruct (Nat.eq_dec a i) as [->|A]; [|exists a, u; auto]. exfalso. rewrite N in U. injection U as <-. destruct P as (P & _). congruence.
  - intros j y Y. destruct (AT _ _ Y) as [[-> ->]|[J Z]].
    + unfold tok, t'. cbn. rewrite SE, PC. split; [exact IK|]. split; [apply BLW, BL|]. exists b'. split; [eapply rep_same; exact NO|exact R'].
    + pose proof (D7 j y Z) as T. pose proof (D12 j y Z) as FX. destruct (key_or y) as [(k2 & K2)|K2]; [|eapply tok_free; eassumption].
      destruct (key_dec k2 k) as [->|KN].
      2: { eapply tok_frame; [exact T|lia|exact K2|reflexivity|apply VO; exact KN|]. intros o2 b2 E Q. exists b2. rewrite (rep_other _ _ _ _ _ b' NO); [auto|]. intros ->. rewrite NO in E. injection E as <-. destruct Q as [Q|Q]; [|congruence]. destruct (D5 _ _ Q) as (z & Z' & ZK). congruence. }
      specialize (HELD j y J Z).
      unfold tok, on_key, fits, locks in *. destruct (ct_st y) eqn:SX; try contradiction; try rewrite K2 in T, SX |- *; destruct (ct_pc y) eqn:PX; auto; try contradiction;
        try (exfalso; apply NB; exists j, y; rewrite SX, PX; repeat split; eauto; intros; discriminate).
      * destruct T as [T1 T2]. split; [exact T1|]. congruence.
      * destruct T as (T1 & b2 & T2 & T3 & T4). split; [exact T1|]. rewrite IK in T1. injection T1 as <-. rewrite NO in T2. injection T2 as <-. exists b'. split; [eapply rep_same; exact NO|]. rewrite R'. split; [lia|]. intros ->. lia.
      * destruct T as (_ & T1 & _). rewrite IK in T1. injection T1 as <-. exfalso. apply HELD. reflexivity.
      * destruct T as (T1 & _). rewrite IK in T1. injection T1 as <-. exfalso. apply HELD. reflexivity.
  - apply put_move. intros o' r P. right. intros j y J Z P2. assert (o' = o /\ r = v) as [-> ->] by (unfold puts, t' in P; cbn in P; rewrite PC in P; destruct P as [P|P]; [discriminate P|injection P as <- <-; auto]).
    pose proof (D7 j y Z) as T. pose proof (D12 j y Z) as FX. destruct P2 as [P2|P2].
    + unfold tok, fits in *. rewrite P2 in *. destruct (ct_st y); try contradiction. destruct T as (_ & z & T & R & _). rewrite NO in T. injection T as <-. lia.
    + eapply HELD; [exact J|exact Z|]. unfold locks. now rewrite P2.
  - apply del_move. intros k' P. exfalso. destruct P as (P & _). unfold t' in P. cbn in P. congruence.
Qed.
End Move.
End Disk.
