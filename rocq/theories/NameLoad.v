(** Creating a model, starting the server again, histories. *)
From Coq Require Import List NArith Bool Arith Lia.
From Verif Require Import Bytes NameModel NameSpec NameProofs.
Import ListNotations.

Section Load.
  Context {V : Type} (null : V).
  Notation mdl := (mdl V). Notation row := (row V).

  Lemma restore_loop_ok : forall l m t f ns ex, tinv m t f ns ex -> NoDup (ns ++ l) ->
    exists m' t' f', restore_loop m t f l = Some (m', t', f') /\ grows m m' /\ incl (map fst t) (map fst t') /\ tinv m' t' f' (ns ++ l) ex.
  Proof.
    induction l as [|x l IH]; intros m t f ns ex T D; cbn [restore_loop].
    - rewrite app_nil_r. exists m, t, f. split; [reflexivity|]. split; [apply grows_refl|]. split; [intros z J; exact J|exact T].
    - assert (N : ~ In x ns). { intros J. apply NoDup_remove_2 in D. apply D. apply in_or_app. left. exact J. }
      destruct (push_new _ _ _ _ _ _ T N) as (m1 & t1 & p & -> & G & _ & _ & IT & -> & T1).
      destruct (IH m1 t1 _ _ _ T1) as (m2 & t2 & f2 & E & G2 & I2 & T2); [rewrite <- app_assoc; exact D|].
      exists m2, t2, f2. split; [exact E|]. split; [eapply grows_trans; eassumption|]. split; [intros z J; auto|].
      rewrite <- app_assoc in T2. exact T2.
  Qed.
  Lemma tinv_ex m t f ns ex : tinv m t f ns ex -> incl ex ns -> tinv m t f ns [].
  Proof.
    intros ((t1 & R & D & F) & T) I. split; [|exact T]. exists t1. split; [exact R|]. split; [exact D|].
    intros x. rewrite F. split; [intros [J|J]; auto|]. intros [J|[]]; auto.
  Qed.
  Lemma new_restore_ok k l : NoDup l -> In k l -> exists s, new_restore k l = Some s /\ inv 0 s (mk_nmdl (V := V) k l [] []).
  Proof.
    intros D K. unfold new_restore. unfold push_allocated. cbn [kfind fresh app length].
    assert (T : tinv [Some k] [(0, false)] [] [] [k]).
    { split; [|split; [constructor|split; [constructor|intros z []]]]. exists [(k, false)].
      split; [apply rel_one; reflexivity|]. split; [cbn [map fst]; constructor; [intros []|constructor]|].
      intros x. cbn [In]. split; [intros [E|[]]; injection E as ->; auto|]. intros [[]|[->|[]]]. auto. }
    destruct (restore_loop_ok l _ _ _ _ _ T D) as (m & t & f & E & G & I & T').
    match goal with |- context [restore_loop ?a ?b ?c l] => replace (restore_loop a b c l) with (Some (m, t, f)) by (symmetry; exact E) end. cbn [app] in T'.
    eexists. split; [reflexivity|]. constructor; cbn [mm tab pk fields deltas rows key_name names changes nrows length].
    - eapply tinv_ex; [exact T'|]. intros z [<-|[]]. exact K.
    - apply G. reflexivity.
    - apply I. left. reflexivity.
    - exact K.
    - reflexivity.
    - constructor.
    - intros z [].
    - lia.
    - constructor.
  Qed.

  (** *** The log *)
  Inductive logs : list event -> bytes -> list bytes -> list change -> Prop :=
  | L_create k l : NoDup l -> In k l -> logs [ECreate k l] k l []
  | L_add e k ns cs l : logs e k ns cs -> NoDup l -> (forall x, In x l -> ~ In x ns) ->
      logs (e ++ [EAdd l]) k (ns ++ l) (cs ++ map Added l)
  | L_rem e k ns cs l : logs e k ns cs -> NoDup l -> (forall x, In x l -> In x ns /\ x <> k) ->
      logs (e ++ [ERem l]) k (minus ns l) (cs ++ map Removed l).

  Lemma replay_app r : forall s s' e, replay (V := V) s r = Some (Some s') -> replay s (r ++ e) = replay s' e.
  Proof.
    induction r as [|a r IH]; intros s s' e E; cbn [replay app] in *.
    - injection E as <-. reflexivity.
    - destruct a as [k l|l|l]; [discriminate E| |].
      + destruct (each_checked add_field s l) as [[s1|]|]; [|discriminate E|discriminate E]. eapply IH. exact E.
      + destruct (each_checked remove_field s l) as [[s1|]|]; [|discriminate E|discriminate E]. eapply IH. exact E.
  Qed.
  Lemma replay_ok e k ns cs : logs e k ns cs ->
    exists l r s0 s, e = ECreate k l :: r /\ new_restore (V := V) k l = Some s0 /\ replay s0 r = Some (Some s) /\
      inv 0 s (mk_nmdl k ns cs []).
  Proof.
    intros H. induction H as [k l D K|e k ns cs l H IH D N|e k ns cs l H IH D N].
    - destruct (new_restore_ok k l D K) as (s & E & I). exists l, [], s, s. auto.
    - destruct IH as (l0 & r & s0 & s & -> & E0 & E1 & I).
      destruct (adds_ok 0 l s _ I D N) as (s' & _ & E2 & I' & _).
      exists l0, (r ++ [EAdd l]), s0, s'. split; [reflexivity|]. split; [exact E0|].
      rewrite (replay_app _ _ _ _ E1). cbn [replay]. rewrite E2. auto.
    - destruct IH as (l0 & r & s0 & s & -> & E0 & E1 & I).
      destruct (rems_ok 0 l s _ I D N) as (s' & _ & E2 & I' & _).
      exists l0, (r ++ [ERem l]), s0, s'. split; [reflexivity|]. split; [exact E0|].
      rewrite (replay_app _ _ _ _ E1). cbn [replay]. rewrite E2. auto.
  Qed.
  Lemma logs_key e k ns cs : logs e k ns cs -> In k ns /\ NoDup ns.
  Proof.
    intros H. induction H as [k l D K|e k ns cs l H [IH1 IH2] D N|e k ns cs l H [IH1 IH2] D N]; auto.
    - split; [apply in_or_app; auto|]. clear H IH1. induction ns as [|x ns IH]; cbn [app]; [exact D|].
      inversion IH2; subst. constructor; [|apply IH; auto; intros y Y; specialize (N y Y); intros J; apply N; right; exact J].
      intros J. apply in_app_or in J as [J|J]; [contradiction|]. apply (N x J). left. reflexivity.
    - split; [|apply NoDup_filter; exact IH2]. apply filter_In. split; [exact IH1|]. apply negb_true_iff. apply has_no.
      intros J. destruct (N k J) as [_ Q]. apply Q. reflexivity.
  Qed.

  (** No change ever leads a row to a name that is not a field at the end *)
  Lemma follow_in c d x : In x (map fst (follow null c d)) <->
    (match d with Added y => In x (map fst c) \/ x = y | Removed y => In x (map fst c) /\ x <> y end).
  Proof.
    destruct d as [y|y]; cbn [follow]; [apply with_new_in|]. rewrite !in_map_iff. split.
    - intros ((z & v) & E & J). cbn [fst] in E. subst z. apply without_in in J as [J Q]. split; [exists (x, v); auto|exact Q].
    - intros [((z & v) & E & J) Q]. cbn [fst] in E. subst z. exists (x, v). split; [reflexivity|]. apply without_in. auto.
  Qed.
  Definition closed (cs : list change) (ns : list bytes) : Prop :=
    forall i c x, In x (map fst (fold_left (follow null) (skipn i cs) c)) -> In x (map fst c) \/ In x ns.
  Definition still (c : list (bytes * V)) (ns ms : list bytes) : Prop := forall x, In x (map fst c) -> In x ns -> In x ms.
  Lemma skipn_snoc {A} i (l : list A) a : skipn i (l ++ [a]) = if i <=? length l then skipn i l ++ [a] else [].
  Proof.
    revert l. induction i as [|i IH]; intros l; [reflexivity|]. destruct l as [|b l]; cbn [skipn app length Nat.leb].
    - destruct i; reflexivity.
    - apply IH.
  Qed.
  Lemma closed_adds l : forall cs ns, closed cs ns -> closed (cs ++ map Added l) (ns ++ l).
  Proof.
    induction l as [|y l IH]; intros cs ns H; cbn [map]; [rewrite !app_nil_r; exact H|].
    replace (cs ++ Added y :: map Added l) with ((cs ++ [Added y]) ++ map Added l) by (rewrite <- app_assoc; reflexivity).
    replace (ns ++ y :: l) with ((ns ++ [y]) ++ l) by (rewrite <- app_assoc; reflexivity).
    apply IH. intros i c x. rewrite skipn_snoc. destruct (i <=? length cs).
    - rewrite fold_left_app. cbn [fold_left]. rewrite follow_in. intros [J| ->].
      + apply H in J as [J|J]; auto. right. apply in_or_app. auto.
      + right. apply in_or_app. right. left. reflexivity.
    - cbn [fold_left]. auto.
  Qed.
  Lemma closed_rems l : forall cs ns, closed cs ns -> closed (cs ++ map Removed l) (minus ns l).
  Proof.
    induction l as [|y l IH]; intros cs ns H; cbn [map]; [rewrite app_nil_r, minus_nil; exact H|].
    replace (cs ++ Removed y :: map Removed l) with ((cs ++ [Removed y]) ++ map Removed l) by (rewrite <- app_assoc; reflexivity).
    rewrite minus_cons. apply IH. intros i c x. rewrite skipn_snoc. destruct (i <=? length cs).
    - rewrite fold_left_app. cbn [fold_left]. rewrite follow_in. intros [J Q].
      apply H in J as [J|J]; auto. right. apply in_rest. auto.
    - cbn [fold_left]. auto.
  Qed.
  Lemma logs_closed e k ns cs : logs e k ns cs -> closed cs ns.
  Proof.
    intros H. induction H as [k l D K|e k ns cs l H IH D N|e k ns cs l H IH D N].
    - intros i c x. rewrite skipn_nil. cbn [fold_left]. auto.
    - apply closed_adds. exact IH.
    - apply closed_rems. exact IH.
  Qed.

  (** *** Rows of the data file *)
  Lemma but_key_ok m k kn f ns : rd m k = Some kn -> rel m f (map un ns) ->
    exists f', but_key m k f = Some f' /\ rel m f' (map un (rest kn ns)) /\ incl f' f.
  Proof.
    intros K. revert ns. induction f as [|[p u] f IH]; intros [|x ns] R; cbn [map] in R; try (exfalso; inversion R; fail); cbn [but_key].
    - exists []. split; [reflexivity|]. split; [constructor|intros z []].
    - inversion R as [|? ? ? ? [H1 H2] R']; subst. cbn [fst un] in H1. rewrite H1, K.
      destruct (IH ns R') as (f' & -> & R2 & I2). unfold same, rest. cbn [filter].
      destruct (bytes_eq_dec x kn).
      + exists f'. split; [reflexivity|]. split; [exact R2|]. intros z J. right. auto.
      + exists ((p, u) :: f'). split; [reflexivity|]. split; [cbn [map]; constructor; [split; auto|exact R2]|].
        intros z [J|J]; [left; exact J|right; auto].
  Qed.
  Lemma in_combine_fst {B} (ns : list bytes) (vs : list B) x : In x (map fst (combine ns vs)) -> In x ns.
  Proof. revert vs. induction ns as [|y ns IH]; intros [|v vs]; cbn [combine map fst In]; auto; intros []. - left; auto. - right. eapply IH. eassumption. Qed.

  Definition fresh_rows (s : mdl) (n : nmdl (V := V)) : Prop :=
    Forall (fun r => incl (map fst (n_cells r)) (names n)) (nrows n) /\ Forall (fun r => (version (deltas s) <= r_ver r + 1)%N) (rows s).
  Lemma load_row_ok s n b : inv 0 s n -> closed (changes n) (names n) -> fresh_rows s n ->
    exists s', load_row null s b = Some s' /\
      inv 0 s' (mk_nmdl (key_name n) (names n) (changes n) (nrows n ++ [loaded null n b])) /\
      fresh_rows s' (mk_nmdl (key_name n) (names n) (changes n) (nrows n ++ [loaded null n b])).
  Proof.
    intros I C [F1 F2]. unfold load_row. destruct (i_tab _ _ _ I) as (_ & RF & DN & IN).
    destruct (but_key_ok _ _ _ _ _ (i_pk _ _ _ I) RF) as (f & -> & RB & IB).
    assert (IF : incl (map fst f) (map fst (tab s))).
    { intros z J. apply in_map_iff in J as (e & <- & J). apply IN. apply in_map. auto. }
    destruct (tuple_ok (mm s) (tab s) f _ RB IF (snd b) [] [] (rel_nil _) (fun z J => match J with end)) as (c & -> & RC & IC).
    { cbn [map app]. apply NoDup_filter. exact DN. }
    cbn [app] in RC.
    assert (RR : rowrel (mm s) (tab s) 0 (mk_row c (fst b)) (mk_nrow (combine (rest (key_name n) (names n)) (snd b)) (fst b))).
    { split; [exact RC|]. split; [reflexivity|]. split; [exact IC|]. cbn [r_ver]. lia. }
    destruct (resolve_ok null _ _ _ _ _ _ _ (i_len _ _ _ I) (i_del _ _ _ I) (i_delt _ _ _ I) (i_b _ _ _ I) RR) as (r & -> & RR' & VR).
    fold (rest (key_name n) (names n)) in *.
    change (up_to_date null (changes n) (mk_nrow (combine (rest (key_name n) (names n)) (snd b)) (fst b))) with (loaded null n b) in RR'.
    eexists. split; [reflexivity|]. split.
    - apply inv_rows; [exact I|]. apply Forall2_app; [exact (i_rows _ _ _ I)|]. constructor; [exact RR'|constructor].
    - split; cbn [nrows rows deltas names]; apply Forall_app; (split; [assumption|constructor; [|constructor]]); [|exact VR].
      assert (IR : forall v : nrow, In v [mk_nrow (combine (rest (key_name n) (names n)) (snd b)) (fst b)] -> incl (map fst (n_cells v)) (names n)).
      { intros v [<-|[]]. cbn [n_cells]. intros x J. apply in_combine_fst in J. apply in_rest in J. apply J. }
      specialize (IR _ (or_introl eq_refl)). cbn [n_cells] in IR.
      unfold loaded, up_to_date. fold (rest (key_name n) (names n)). cbn [n_seen n_cells].
      destruct (N.leb_spec (N.of_nat (length (changes n))) (fst b)) as [L|L]; [exact IR|].
      destruct (skipn (N.to_nat (fst b + 1)) (changes n)) as [|d tl] eqn:SK; [exact IR|].
      cbn [n_cells]. rewrite <- SK. intros x J. apply C in J as [J|J]; auto.
  Qed.
  Lemma load_rows_ok l : forall s n, inv 0 s n -> closed (changes n) (names n) -> fresh_rows s n ->
    exists s', load_rows null s l = Some s' /\
      inv 0 s' (mk_nmdl (key_name n) (names n) (changes n) (nrows n ++ map (loaded null n) l)) /\
      fresh_rows s' (mk_nmdl (key_name n) (names n) (changes n) (nrows n ++ map (loaded null n) l)).
  Proof.
    induction l as [|b l IH]; intros s n I C F; cbn [load_rows map].
    - exists s. rewrite app_nil_r. destruct n. auto.
    - destruct (load_row_ok s n b I C F) as (s1 & -> & I1 & F1).
      destruct (IH s1 _ I1 C F1) as (s2 & E & I2 & F2). exists s2. split; [exact E|].
      cbn [key_name names changes nrows] in *. rewrite <- app_assoc in I2, F2. split; [exact I2|exact F2].
  Qed.

  (** *** Freeing the names of removed fields *)
  Lemma vacuum_ok s n : inv 0 s n -> fresh_rows s n ->
    inv (length (deltas s)) (vacuum_stashed s) n /\
    (forall p x, rd (mm (vacuum_stashed s)) p = Some x -> rd (mm s) p = Some x) /\
    (forall p, In p (map fst (tab s)) -> (exists x, rd (mm (vacuum_stashed s)) p = Some x) -> exists x, In x (names n) /\ rd (mm s) p = Some x).
  Proof.
    intros [T P PT PN L D DT B R] [F1 F2]. unfold vacuum_stashed, vacuum_marked.
    set (dead := map fst (filter snd (tab s))). set (m := fold_left free dead (mm s)).
    destruct T as ((t1 & RT & DD & F) & RF & DN & IN).
    assert (KEEP : forall p x, In p (map fst (tab s)) -> rd (mm s) p = Some x -> In x (names n) ->
              rd m p = Some x /\ In p (map fst (filter (fun e => negb (snd e)) (tab s)))).
    { intros p x IP RX IX. apply in_map_iff in IP as ([q f] & Q & IP). cbn [fst] in Q. subst q.
      destruct (rel_in _ _ _ _ _ RT IP) as (y & RY & IY). rewrite RX in RY. injection RY as <-.
      assert (f = false). { destruct f; auto. exfalso. eapply nodup_flag; [exact DD|exact IY|]. apply F. left. exact IX. }
      subst f. split.
      - unfold m. rewrite rd_frees. destruct (in_dec Nat.eq_dec p dead) as [J|J]; [|exact RX].
        exfalso. unfold dead in J. apply in_map_iff in J as ([q g] & Q & J). cbn [fst] in Q. subst q. apply filter_In in J as [J G]. cbn [snd] in G. subst g.
        destruct (rel_in _ _ _ _ _ RT J) as (y & RY & IY'). rewrite RX in RY. injection RY as <-. eapply nodup_flag; eassumption.
      - apply in_map_iff. exists (p, false). split; [reflexivity|]. apply filter_In. split; [exact IP|reflexivity]. }
    split; [|split].
    - constructor; cbn [mm tab pk fields deltas rows].
      + split; [|split; [|split; [exact DN|]]].
        * exists (filter (fun e => negb (snd e)) t1). split; [|split].
          -- assert (RK : forall l l', rel (mm s) l l' -> incl l (tab s) -> incl l' t1 ->
                 rel m (filter (fun e => negb (snd e)) l) (filter (fun e => negb (snd e)) l')).
             { intros l l' RR. induction RR as [|[p a] [x c] l l' [H1 H2] RR IH]; intros I1 I2; cbn [filter]; [constructor|].
               cbn [fst snd] in *. subst c.
               assert (I1' : incl l (tab s)) by (intros z J; apply I1; right; exact J).
               assert (I2' : incl l' t1) by (intros z J; apply I2; right; exact J).
               destruct a; cbn [negb]; [apply IH; assumption|]. constructor; [|apply IH; assumption]. cbn [fst snd]. split; [|reflexivity].
               destruct (KEEP p x); [|exact H1| |assumption].
               - apply in_map_iff. exists (p, false). split; [reflexivity|]. apply I1. left. reflexivity.
               - assert (J : In (x, false) t1) by (apply I2; left; reflexivity). apply F in J as [J|[]]. exact J. }
             apply RK; [exact RT| |]; intros z J; exact J.
          -- clear - DD. induction t1 as [|[x f] t1 IH]; cbn [filter map fst] in *; [constructor|]. inversion DD; subst.
             destruct f; cbn [negb snd]; [auto|]. cbn [map fst]. constructor; auto. intros J. apply H1. apply in_map_iff in J as (e & Q & J).
             apply filter_In in J as [J _]. apply in_map_iff. exists e. auto.
          -- intros x. rewrite filter_In, F. cbn [snd negb]. tauto.
        * assert (RK : forall l ns, rel (mm s) l (map un ns) -> incl (map fst l) (map fst (tab s)) -> incl ns (names n) -> rel m l (map un ns)).
          { induction l as [|[p u] l IH]; intros [|x ns] RR I1 I2; cbn [map] in RR; try (exfalso; inversion RR; fail); [constructor|].
            inversion RR as [|? ? ? ? [H1 H2] RR']; subst. cbn [map]. constructor.
            - split; [|exact H2]. cbn [fst] in *. apply KEEP; [apply I1; left; reflexivity|exact H1|apply I2; left; reflexivity].
            - apply IH; [exact RR'| |]; intros z J; [apply I1|apply I2]; right; exact J. }
          apply RK; [exact RF|exact IN|intros z J; exact J].
        * intros p J. pose proof (IN p J) as J'. apply in_map_iff in J as (e & <- & J). destruct e as [p u].
          destruct (rel_in _ _ _ _ _ RF J) as (x & RX & IX). apply in_map_iff in IX as (y & E & IY). injection E as <- _.
          destruct (KEEP p y J' RX IY) as [_ K]. exact K.
      + apply KEEP; assumption.
      + eapply KEEP; eassumption.
      + exact PN.
      + exact L.
      + rewrite skipn_all, L, skipn_all. constructor.
      + rewrite skipn_all. intros z [].
      + lia.
      + assert (G : forall (rs : list row) (ns : list nrow), Forall2 (rowrel (mm s) (tab s) 0) rs ns -> Forall (fun r => incl (map fst (n_cells r)) (names n)) ns ->
             Forall (fun r => (version (deltas s) <= r_ver r + 1)%N) rs ->
             Forall2 (rowrel m (filter (fun e => negb (snd e)) (tab s)) (length (deltas s))) rs ns).
        { intros rs ns RR. induction RR as [|r k rs ns (A1 & A2 & A3 & A4) RR IH]; intros B1 B2; constructor.
          - inversion B1; subst. inversion B2; subst. split; [|split; [exact A2|split; [|unfold version in *; assumption]]].
            + assert (RK : forall (l : list (ptr * V)) l', rel (mm s) l l' -> incl (map fst l) (map fst (tab s)) -> incl (map fst l') (names n) -> rel m l l').
              { clear - KEEP. intros l l' RR. induction RR as [|[p v] [x w] l l' [H1 H2] RR IH]; intros I1 I2; constructor.
                - split; [|exact H2]. cbn [fst] in *. apply KEEP; [apply I1; left; reflexivity|exact H1|apply I2; left; reflexivity].
                - apply IH; intros z J; [apply I1|apply I2]; right; exact J. }
              apply RK; assumption.
            + intros p J. pose proof (A3 p J) as J'. apply in_map_iff in J as ([q v] & Q & J). cbn [fst] in Q. subst q.
              destruct (rel_in _ _ _ _ _ A1 J) as (x & RX & IX). eapply KEEP; [exact J'|exact RX|]. apply H1. apply in_map_iff. exists (x, v). auto.
          - inversion B1; subst. inversion B2; subst. auto. }
        apply G; assumption.
    - cbn [mm]. intros p x. unfold m. rewrite rd_frees. destruct (in_dec Nat.eq_dec p dead); [intros H; discriminate H|auto].
    - cbn [mm]. intros p IP (x & RX). unfold m in RX. rewrite rd_frees in RX.
      destruct (in_dec Nat.eq_dec p dead) as [J|J]; [discriminate RX|]. exists x. split; [|exact RX].
      apply in_map_iff in IP as ([q f] & Q & IP). cbn [fst] in Q. subst q. destruct (rel_in _ _ _ _ _ RT IP) as (y & RY & IY).
      rewrite RX in RY. injection RY as <-. destruct f.
      + exfalso. apply J. unfold dead. apply in_map_iff. exists (p, true). split; [reflexivity|]. apply filter_In. auto.
      + apply F in IY as [IY|[]]. exact IY.
  Qed.

  Lemma restart_ok e k ns cs file : logs e k ns cs ->
    exists s b, restart null e file = Some (Some s) /\ inv b s (mk_nmdl k ns cs (map (loaded null (mk_nmdl k ns cs [])) file)).
  Proof.
    intros H. destruct (replay_ok e k ns cs H) as (l & r & s0 & s & -> & E0 & E1 & I). unfold restart. rewrite E0, E1.
    assert (F : fresh_rows s (mk_nmdl k ns cs [])).
    { split; cbn [nrows]; [constructor|]. pose proof (i_rows _ _ _ I) as R. cbn [nrows] in R. inversion R. constructor. }
    destruct (load_rows_ok file s _ I (logs_closed _ _ _ _ H) F) as (s2 & -> & I2 & F2).
    exists (vacuum_stashed s2), (length (deltas s2)). split; [reflexivity|].
    destruct (vacuum_ok s2 _ I2 F2) as (I3 & _). cbn [key_name names changes nrows app] in I3. exact I3.
  Qed.

  (** *** CREATE MODEL *)
  Lemma create_loop_ok : forall l m t f ns last, tinv m t f ns [] ->
    exists o, create_loop m t f last l = Some o /\
      match o with
      | None => ~ NoDup (ns ++ map fst l)
      | Some (m', t', f', last') =>
          NoDup (ns ++ map fst l) /\ grows m m' /\ incl (map fst t) (map fst t') /\ tinv m' t' f' (ns ++ map fst l) [] /\
          (filter snd l = [] -> last' = last) /\
          (forall k r, filter snd l = r ++ [(k, true)] -> exists p, last' = Some p /\ rd m' p = Some k /\ In p (map fst t'))
      end.
  Proof.
    induction l as [|[x pr] l IH]; intros m t f ns last T; cbn [create_loop map fst].
    - exists (Some (m, t, f, last)). rewrite app_nil_r. split; [reflexivity|]. split; [apply T|]. split; [apply grows_refl|].
      split; [intros z J; exact J|]. split; [exact T|]. split; [auto|]. intros k r E. destruct r; discriminate E.
    - change (allocate_or_recycle m t x) with (push_allocated m t x).
      destruct (in_dec bytes_eq_dec x ns) as [N|N].
      + destruct (push_dup _ _ _ _ _ _ T N) as (t' & p & -> & ->). exists None. split; [reflexivity|].
        intros D. apply NoDup_remove_2 in D. apply D. apply in_or_app. left. exact N.
      + destruct (push_new _ _ _ _ _ _ T N) as (m1 & t1 & p & -> & G & RP & IP & IT & -> & T1).
        destruct (IH m1 t1 _ _ (if pr then Some p else last) T1) as (o & -> & K). exists o. split; [reflexivity|].
        destruct o as [[[[m2 t2] f2] last2]|].
        * destruct K as (D & G2 & I2 & T2 & K1 & K2). rewrite <- app_assoc in D, T2. cbn [app] in D, T2.
          split; [exact D|]. split; [eapply grows_trans; eassumption|]. split; [intros z J; auto|]. split; [exact T2|]. split.
          -- cbn [filter snd]. destruct pr; [intros E; discriminate E|]. exact K1.
          -- cbn [filter snd]. intros k r E. destruct pr; [|eauto]. destruct r as [|e r].
             ++ injection E as -> E. specialize (K1 E). exists p. split; [exact K1|]. split; [apply G2; exact RP|]. auto.
             ++ injection E as _ E. eauto.
        * rewrite <- app_assoc in K. exact K.
  Qed.
  Lemma create_ok l : exists o, create (V := V) l = Some o /\
    match o with
    | Some s => exists n, created l n /\ inv 0 (md s) n /\ logs (log s) (key_name n) (names n) (changes n)
    | None => forall n : nmdl (V := V), ~ created l n
    end.
  Proof.
    unfold create, process_create.
    assert (T : tinv [] [] [] [] []).
    { split; [|split; [constructor|split; [constructor|intros z []]]]. exists []. split; [constructor|]. split; [constructor|].
      intros x. cbn [In]. tauto. }
    destruct (create_loop_ok l [] [] [] [] None T) as (o & E & K). cbn [app] in K.
    match goal with |- context [create_loop ?a ?b ?c ?d l] => replace (create_loop a b c d l) with (Some o) by (symmetry; exact E) end.
    destruct o as [[[[m t] f] last]|].
    2:{ exists None. split; [reflexivity|]. intros n C. apply K. inversion C; assumption. }
    destruct K as (D & _ & _ & T' & K1 & K2).
    assert (FIN : forall p k, rd m p = Some k -> In p (map fst t) -> In k (map fst l) -> 
      names_of m f = Some (map fst l) /\
      inv 0 (mk_mdl m t p f [] []) (mk_nmdl (V := V) k (map fst l) [] []) /\ logs [ECreate k (map fst l)] k (map fst l) []).
    { intros p k RP IP IK. split; [apply names_of_ok; apply T'|]. split; [|constructor; assumption].
      constructor; cbn [mm tab pk fields deltas rows key_name names changes nrows length]; auto. - constructor. - intros z []. }
    destruct (filter snd l) as [|e0 fl] eqn:FS.
    - cbn [length Nat.leb]. rewrite (K1 eq_refl). destruct l as [|[x b] l].
      + destruct f as [|[p u] f]; [exists None; split; [reflexivity|]; intros n C; inversion C; discriminate|].
        exfalso. destruct T' as (_ & RF & _). inversion RF.
      + cbn [filter snd] in FS. destruct b; [discriminate FS|].
        destruct f as [|[p u] f]; [exfalso; destruct T' as (_ & RF & _); inversion RF|].
        destruct T' as (TT & RF & DN & IN). cbn [map] in RF. inversion RF as [|? ? ? ? [H1 H2] RF']; subst. cbn [fst un] in H1.
        destruct (FIN p x H1) as (F1 & F2 & F3); [apply IN; left; reflexivity|left; reflexivity|].
        cbn [mm pk fields]. rewrite H1, F1. eexists. split; [reflexivity|].
        exists (mk_nmdl x (map fst ((x, false) :: l)) [] []). cbn [md log key_name names changes]. split; [|split; assumption]. apply c_first; assumption.
    - destruct fl as [|e1 fl].
      + cbn [length Nat.leb]. assert (PR : e0 = (fst e0, true)).
        { assert (J : In e0 (filter snd l)) by (rewrite FS; left; reflexivity). apply filter_In in J as [_ J]. destruct e0; cbn [snd fst] in *; congruence. }
        destruct e0 as [k b]. cbn [fst] in PR. injection PR as ->.
        destruct (K2 k [] eq_refl) as (p & -> & RP & IP). 
        assert (IK : In k (map fst l)).
        { assert (J : In (k, true) (filter snd l)) by (rewrite FS; left; reflexivity). apply filter_In in J as [J _]. apply in_map_iff. exists (k, true). auto. }
        destruct (FIN p k RP IP IK) as (F1 & F2 & F3). cbn [mm pk fields]. rewrite RP, F1. eexists. split; [reflexivity|].
        exists (mk_nmdl k (map fst l) [] []). cbn [md log key_name names changes]. split; [|split; assumption]. apply c_declared; assumption.
      + cbn [length Nat.leb]. exists None. split; [reflexivity|]. intros n C. inversion C as [? ? ? Q|? ? ? Q]; subst.
        * rewrite FS in Q. discriminate Q.
        * cbn [filter snd] in FS. rewrite Q in FS. discriminate FS.
  Qed.

  (** *** Histories *)
  Definition told (o : op V) : nop :=
    match o with
    | OAdd l => NAdd l | ORem l => NRem l | OInsert d => NInsert (vals d) | ORead i w => NRead i w
    | OUpdate i l => NUpdate i l | ORestart f => NRestart f
    end.
  Definition shown (a : ans V) : nans := match a with ADone => NDone | ARefused => NRefused | AGot l => NGot (map show l) end.
  Definition sim (s : srv V) (n : nmdl) : Prop :=
    (exists b, inv b (md s) n) /\ logs (log s) (key_name n) (names n) (changes n).

  Lemma step_ok s n o : sim s n -> exists s' a n', step null s o = Some (s', a) /\ nstep null n (told o) n' (shown a) /\ sim s' n'.
  Proof.
    intros [(b & I) L]. destruct o as [l|l|d|i w|i l|file]; cbn [step told].
    - destruct (alter_add_ok b _ n l I) as (r & -> & K). destruct r as [m|].
      + destruct K as [O I']. eexists _, _, _. split; [reflexivity|]. split; [constructor; exact O|].
        split; [exists b; exact I'|]. cbn [log key_name names changes]. destruct O as [O1 O2]. constructor; assumption.
      + eexists _, _, _. split; [reflexivity|]. split; [constructor; exact K|]. split; [exists b; exact I|exact L].
    - destruct (alter_rem_ok b _ n l I) as (r & -> & K). destruct r as [m|].
      + destruct K as [O I']. eexists _, _, _. split; [reflexivity|]. split; [constructor; exact O|].
        split; [exists b; exact I'|]. cbn [log key_name names changes]. destruct O as [O1 O2]. constructor; assumption.
      + eexists _, _, _. split; [reflexivity|]. split; [constructor; exact K|]. split; [exists b; exact I|exact L].
    - destruct (insert_ok b _ n d I) as (r & -> & K). destruct r as [m|].
      + destruct K as (c & E & I'). eexists _, _, _. split; [reflexivity|]. split; [apply s_ins; exact E|]. split; [exists b; exact I'|exact L].
      + eexists _, _, _. split; [reflexivity|]. split; [apply s_ins_no; exact K|]. split; [exists b; exact I|exact L].
    - destruct (read_row_ok null b _ n i w I) as (m & gs & -> & K). destruct (nth_error (nrows n) i) as [r|] eqn:E.
      + destruct K as [I' M]. eexists _, _, _. split; [reflexivity|]. cbn [shown]. rewrite M. split; [apply s_read; exact E|].
        split; [exists b; exact I'|exact L].
      + destruct K as [-> ->]. eexists _, _, _. split; [reflexivity|]. split; [apply s_read_no; exact E|]. split; [exists b; exact I|exact L].
    - destruct (update_ok b _ n i l I) as (r & -> & K). destruct r as [m|].
      + destruct K as (r & c & E1 & E2 & I'). eexists _, _, _. split; [reflexivity|]. split; [eapply s_upd; eassumption|]. split; [exists b; exact I'|exact L].
      + eexists _, _, _. split; [reflexivity|]. split; [apply s_upd_no; exact K|]. split; [exists b; exact I|exact L].
    - destruct (restart_ok _ _ _ _ file L) as (m & b' & -> & I'). eexists _, _, _. split; [reflexivity|]. split; [apply s_restart|].
      split; [exists b'|exact L]. exact I'.
  Qed.
  Lemma run_ok l : forall s n, sim s n -> exists s' la n', run null s l = Some (s', la) /\ nrun null n (map told l) n' (map shown la) /\ sim s' n'.
  Proof.
    induction l as [|o l IH]; intros s n S; cbn [run map].
    - exists s, [], n. split; [reflexivity|]. split; [constructor|exact S].
    - destruct (step_ok s n o S) as (s1 & a & n1 & -> & N1 & S1). destruct (IH s1 n1 S1) as (s2 & la & n2 & -> & N2 & S2).
      exists s2, (a :: la), n2. split; [reflexivity|]. split; [cbn [map]; econstructor; eassumption|exact S2].
  Qed.
End Load.
