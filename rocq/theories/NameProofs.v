(** Pointers to names behave as the names they point to. *)
From Coq Require Import List NArith Bool Arith Lia.
From Verif Require Import Bytes NameModel NameSpec.
Import ListNotations.

Lemma same_iff a b : same a b = true <-> a = b.
Proof. unfold same. destruct (bytes_eq_dec a b); split; congruence. Qed.
Lemma same_refl a : same a a = true.
Proof. apply same_iff; reflexivity. Qed.
Lemma same_no a b : a <> b -> same a b = false.
Proof. intros H. destruct (same a b) eqn:E; auto. apply same_iff in E. congruence. Qed.
Lemma same_dec a b : same a b = if bytes_eq_dec a b then true else false.
Proof. reflexivity. Qed.

(** ** Memory *)
Definition grows (m m' : mem) : Prop := forall p x, rd m p = Some x -> rd m' p = Some x.
Lemma grows_refl m : grows m m. Proof. unfold grows; auto. Qed.
Lemma grows_trans a b c : grows a b -> grows b c -> grows a c.
Proof. unfold grows; auto. Qed.
Lemma grows_app m l : grows m (m ++ l).
Proof.
  intros p x H. unfold rd in *. destruct (nth_error m p) as [[y|]|] eqn:E; try discriminate H.
  rewrite nth_error_app1 by (apply nth_error_Some; congruence). rewrite E. exact H.
Qed.
Lemma rd_fresh m x : rd (m ++ [Some x]) (length m) = Some x.
Proof. unfold rd. rewrite nth_error_app2, Nat.sub_diag by lia. reflexivity. Qed.

Lemma nth_free m p q : nth_error (free m p) q = if Nat.eqb p q then match nth_error m q with Some _ => Some None | None => None end else nth_error m q.
Proof.
  revert p q. induction m as [|b m IH]; intros p q; cbn [free].
  - destruct (Nat.eqb p q); destruct q; reflexivity.
  - destruct p as [|p]; destruct q as [|q]; cbn [nth_error Nat.eqb]; auto.
Qed.
Lemma rd_free m p q : rd (free m p) q = if Nat.eqb p q then None else rd m q.
Proof. unfold rd. rewrite nth_free. destruct (Nat.eqb p q); auto. destruct (nth_error m q); reflexivity. Qed.
Lemma rd_frees l m q : rd (fold_left free l m) q = if in_dec Nat.eq_dec q l then None else rd m q.
Proof.
  revert m. induction l as [|p l IH]; intros m; cbn [fold_left]; [reflexivity|].
  rewrite IH, rd_free. destruct (in_dec Nat.eq_dec q l) as [I|I], (in_dec Nat.eq_dec q (p :: l)) as [J|J]; auto.
  - exfalso. apply J. right. exact I.
  - destruct J as [J|J]; [|exfalso; auto]. subst. rewrite Nat.eqb_refl. reflexivity.
  - destruct (Nat.eqb_spec p q); auto. subst. exfalso. apply J. left. reflexivity.
Qed.

(** ** Maps *)
Section Map.
  Context {A : Type}.
  Definition rel (m : mem) (l : list (ptr * A)) (l' : list (bytes * A)) : Prop :=
    Forall2 (fun a b => rd m (fst a) = Some (fst b) /\ snd a = snd b) l l'.
  Lemma rel_nil m : rel m [] [].
  Proof. constructor. Qed.
  Lemma rel_grows m m' l l' : grows m m' -> rel m l l' -> rel m' l l'.
  Proof. intros G R. induction R as [|a b l l' [H1 H2] R IH]; constructor; auto. Qed.
  Lemma rel_app m l1 l1' l2 l2' : rel m l1 l1' -> rel m l2 l2' -> rel m (l1 ++ l2) (l1' ++ l2').
  Proof. apply Forall2_app. Qed.
  Lemma rel_one m p x (a : A) : rd m p = Some x -> rel m [(p, a)] [(x, a)].
  Proof. intros H. constructor; [split; auto|constructor]. Qed.
  Lemma rel_in m l l' p a : rel m l l' -> In (p, a) l -> exists x, rd m p = Some x /\ In (x, a) l'.
  Proof.
    intros R. induction R as [|[q b] [y c] l l' [H1 H2] R IH]; intros I; [contradiction|].
    cbn [fst snd] in *. destruct I as [I|I].
    - injection I as -> ->. subst. exists y. split; [exact H1|left; reflexivity].
    - destruct (IH I) as (x & X & J). exists x. split; [exact X|right; exact J].
  Qed.
  Lemma rel_in' m l l' x a : rel m l l' -> In (x, a) l' -> exists p, rd m p = Some x /\ In (p, a) l.
  Proof.
    intros R. induction R as [|[q b] [y c] l l' [H1 H2] R IH]; intros I; [contradiction|].
    cbn [fst snd] in *. destruct I as [I|I].
    - injection I as -> ->. subst. exists q. split; [exact H1|left; reflexivity].
    - destruct (IH I) as (p & X & J). exists p. split; [exact X|right; exact J].
  Qed.
  Lemma rel_len m l l' : rel m l l' -> length l = length l'.
  Proof. intros R. induction R; cbn [length]; congruence. Qed.
  Lemma rel_nodup m l l' : rel m l l' -> NoDup (map fst l') -> NoDup (map fst l).
  Proof.
    intros R. induction R as [|[q b] [y c] l l' [H1 H2] R IH]; cbn [map fst snd] in *; intros D; [constructor|].
    inversion D as [|? ? N D']; subst. constructor; [|auto]. intros I. apply in_map_iff in I as ([p e] & Q & I).
    cbn [fst] in Q. subst p. destruct (rel_in _ _ _ _ _ R I) as (x & X & J). rewrite H1 in X. injection X as ->.
    apply N. apply in_map_iff. exists (x, e). auto.
  Qed.
  Lemma rel_mem m l l' : rel m l l' -> map (rd m) (map fst l) = map Some (map fst l').
  Proof. intros R. induction R as [|[q b] [y c] l l' [H1 H2] R IH]; cbn [map fst snd] in *; congruence. Qed.

  Lemma kfind_rel m l l' x : rel m l l' ->
    exists o, kfind m l x = Some o /\
      match o with Some (p, a) => rd m p = Some x /\ In (p, a) l /\ cell x l' = Some a | None => cell x l' = None end.
  Proof.
    intros R. induction R as [|[q b] [y c] l l' [H1 H2] R IH]; cbn [kfind cell].
    - exists None. auto.
    - cbn [fst snd] in *. destruct IH as (o & E & K). rewrite H1, E. unfold same. subst c.
      destruct (bytes_eq_dec y x) as [D|D].
      + exists (Some (q, b)). subst. split; [reflexivity|]. split; [exact H1|]. split; [left|]; reflexivity.
      + exists o. split; [reflexivity|]. destruct o as [[p a]|]; [|exact K]. destruct K as (K1 & K2 & K3).
        split; [exact K1|]. split; [right; exact K2|exact K3].
  Qed.
  Lemma cell_none x (l : list (bytes * A)) : cell x l = None <-> ~ In x (map fst l).
  Proof.
    induction l as [|[y v] l IH]; cbn [cell map fst].
    - split; auto.
    - destruct (bytes_eq_dec y x) as [D|D].
      + split; [intros H; discriminate H|]. intros H. exfalso. apply H. left. exact D.
      + rewrite IH. split; intros H; [intros [I|I]; auto|]. intros I. apply H. right. exact I.
  Qed.
  Lemma cell_some x (l : list (bytes * A)) : (exists a, cell x l = Some a) <-> In x (map fst l).
  Proof.
    split.
    - intros (a & E). destruct (in_dec bytes_eq_dec x (map fst l)) as [I|I]; auto. apply cell_none in I. congruence.
    - intros I. destruct (cell x l) as [a|] eqn:E; [exists a; auto|]. apply cell_none in E. contradiction.
  Qed.
  Lemma cell_in x a (l : list (bytes * A)) : cell x l = Some a -> In (x, a) l.
  Proof.
    induction l as [|[y v] l IH]; cbn [cell]; intros E; [discriminate E|].
    destruct (bytes_eq_dec y x) as [D|D]; [injection E as ->; subst; left; reflexivity|right; auto].
  Qed.
  Lemma kinsert_rel m l l' p x a : rel m l l' -> rd m p = Some x ->
    exists b l2, kinsert m l p a = Some (b, l2) /\ rel m l2 (with_new x a l') /\
      (b = true <-> ~ In x (map fst l')) /\ l2 = (if b then l ++ [(p, a)] else l) /\ incl (map fst l2) (p :: map fst l).
  Proof.
    intros R P. unfold kinsert, with_new. rewrite P. destruct (kfind_rel m l l' x R) as (o & -> & K).
    destruct o as [[q c]|].
    - destruct K as (K1 & K2 & K3). rewrite K3. exists false, l. split; [reflexivity|]. split; [exact R|]. split; [|split; [reflexivity|right; assumption]].
      split; [intros H; discriminate H|]. intros N. exfalso. apply N. apply cell_some. exists c. exact K3.
    - rewrite K. exists true, (l ++ [(p, a)]). split; [reflexivity|]. split; [apply rel_app; [exact R|apply rel_one; exact P]|].
      split; [split; auto; intros _; apply cell_none; exact K|]. split; [reflexivity|].
      rewrite map_app. cbn [map fst]. intros z I. apply in_app_or in I as [I|[I|[]]]; [right; exact I|left; exact I].
  Qed.
  Lemma kdelete_rel m l l' x : rel m l l' ->
    exists l2, kdelete m l x = Some l2 /\ rel m l2 (without x l') /\ incl l2 l.
  Proof.
    intros R. induction R as [|[q b] [y c] l l' [H1 H2] R IH]; cbn [kdelete without filter fst].
    - exists []. split; [reflexivity|]. split; [constructor|]. intros z [].
    - cbn [fst snd] in *. destruct IH as (l2 & E & K & I). rewrite H1, E. unfold same.
      destruct (bytes_eq_dec y x) as [D|D].
      + exists l2. split; [reflexivity|]. split; [exact K|]. intros z J. right. auto.
      + exists ((q, b) :: l2). split; [reflexivity|]. split; [constructor; [split; auto|exact K]|].
        intros z [J|J]; [left; exact J|right; auto].
  Qed.
  Lemma kset_rel m l l' x a : rel m l l' ->
    exists l2, kset m l x a = Some l2 /\ rel m l2 (with_value x a l') /\ map fst l2 = map fst l.
  Proof.
    intros R. induction R as [|[q b] [y c] l l' [H1 H2] R IH]; cbn [kset with_value map fst].
    - exists []. split; [reflexivity|]. split; [constructor|reflexivity].
    - cbn [fst snd] in *. destruct IH as (l2 & E & K & I). rewrite H1, E. unfold same.
      exists ((q, if (if bytes_eq_dec y x then true else false) then a else b) :: l2). split; [reflexivity|].
      split; [|cbn [map fst]; congruence]. constructor; [|exact K]. subst c.
      destruct (bytes_eq_dec y x); cbn [fst snd]; auto.
  Qed.

  Lemma with_value_fst x a (l : list (bytes * A)) : map fst (with_value x a l) = map fst l.
  Proof. unfold with_value. rewrite map_map. apply map_ext. intros [y v]. cbn [fst]. destruct (bytes_eq_dec y x); reflexivity. Qed.
  Lemma in_with_value x a y b (l : list (bytes * A)) :
    In (y, b) (with_value x a l) <-> (y <> x /\ In (y, b) l) \/ (y = x /\ b = a /\ In x (map fst l)).
  Proof.
    unfold with_value. rewrite in_map_iff. split.
    - intros ([z c] & E & I). cbn [fst] in E. destruct (bytes_eq_dec z x) as [D|D]; injection E as <- <-.
      + right. subst. split; auto. split; auto. apply in_map_iff. exists (x, c). auto.
      + left. auto.
    - intros [[N I]|(-> & -> & I)].
      + exists (y, b). cbn [fst]. destruct (bytes_eq_dec y x); [contradiction|]. auto.
      + apply in_map_iff in I as ([z c] & E & I). cbn [fst] in E. subst z. exists (x, c). cbn [fst].
        destruct (bytes_eq_dec x x); [auto|contradiction].
  Qed.
  Lemma without_in x (l : list (bytes * A)) y a : In (y, a) (without x l) <-> In (y, a) l /\ y <> x.
  Proof.
    unfold without. rewrite filter_In. cbn [fst]. destruct (bytes_eq_dec y x); split; intros [H1 H2]; auto; try discriminate H2; contradiction.
  Qed.
  Lemma with_new_in x a (l : list (bytes * A)) y : In y (map fst (with_new x a l)) <-> In y (map fst l) \/ y = x.
  Proof.
    unfold with_new. destruct (cell x l) as [c|] eqn:E.
    - split; [auto|]. intros [I|I]; auto. subst. apply cell_some. exists c. exact E.
    - rewrite map_app, in_app_iff. cbn [map fst In]. split; intros [I|I]; auto; destruct I as [I|I]; auto; contradiction.
  Qed.
End Map.

Definition un (x : bytes) : bytes * unit := (x, tt).
Lemma un_fst l : map fst (map un l) = l.
Proof. rewrite map_map. cbn [un fst]. apply map_id. Qed.
Lemma un_without x l : without x (map un l) = map un (filter (fun y => if bytes_eq_dec y x then false else true) l).
Proof. unfold without. induction l as [|y l IH]; cbn [map filter un fst]; auto. destruct (bytes_eq_dec y x); cbn [map]; congruence. Qed.
Definition rest (x : bytes) (l : list bytes) : list bytes := filter (fun y => if bytes_eq_dec y x then false else true) l.
Lemma in_rest x y l : In y (rest x l) <-> In y l /\ y <> x.
Proof. unfold rest. rewrite filter_In. destruct (bytes_eq_dec y x); split; intros [H1 H2]; auto; try discriminate H2; contradiction. Qed.

(** ** The table and the fields *)
(** [ex]: names that are kept though they are not among the fields yet (the primary key while a model is being restored) *)
Definition tinv (m : mem) (t : table) (f : list (ptr * unit)) (ns ex : list bytes) : Prop :=
  (exists t', rel m t t' /\ NoDup (map fst t') /\ (forall x, In (x, false) t' <-> In x ns \/ In x ex)) /\
  rel m f (map un ns) /\ NoDup ns /\ incl (map fst f) (map fst t).

Lemma nodup_flag (t' : list (bytes * bool)) x : NoDup (map fst t') -> In (x, true) t' -> In (x, false) t' -> False.
Proof.
  induction t' as [|[y b] t IH]; intros D I J; [contradiction|]. cbn [map fst] in D. inversion D as [|? ? N D']; subst.
  destruct I as [I|I], J as [J|J]; auto.
  - congruence.
  - injection I as -> ->. apply N. apply in_map_iff. exists (x, false). auto.
  - injection J as -> ->. apply N. apply in_map_iff. exists (x, true). auto.
Qed.

Lemma push_new m t f ns ex x : tinv m t f ns ex -> ~ In x ns ->
  exists m' t' p, push_allocated m t x = Some (m', t', p) /\ grows m m' /\ rd m' p = Some x /\ In p (map fst t') /\
    incl (map fst t) (map fst t') /\ kinsert m' f p tt = Some (true, f ++ [(p, tt)]) /\ tinv m' t' (f ++ [(p, tt)]) (ns ++ [x]) ex.
Proof.
  intros ((t1 & R & D & F) & RF & DN & IN) N. unfold push_allocated.
  destruct (kfind_rel m t t1 x R) as (o & -> & K).
  assert (DN' : NoDup (ns ++ [x])).
  { apply NoDup_rev in DN. rewrite <- (rev_involutive (ns ++ [x])). apply NoDup_rev. rewrite rev_app_distr. constructor; auto. rewrite <- in_rev. exact N. }
  destruct o as [[p b]|].
  - destruct K as (K1 & K2 & K3). destruct (kset_rel m t t1 x false R) as (t2 & -> & R2 & M2).
    exists m, t2, p. split; [reflexivity|]. split; [apply grows_refl|]. split; [exact K1|].
    assert (P : In p (map fst t2)) by (rewrite M2; apply in_map_iff; exists (p, b); auto).
    split; [exact P|]. split; [rewrite M2; intros z I; exact I|].
    destruct (kinsert_rel m f (map un ns) p x tt RF K1) as (bb & l2 & -> & R3 & B & L2 & _). rewrite un_fst in B.
    assert (bb = true) by (apply B; exact N). subst bb l2. split; [reflexivity|]. split; [|split; [|split]].
    + exists (with_value x false t1). split; [exact R2|]. split; [rewrite with_value_fst; exact D|].
      intros y. rewrite in_with_value, in_app_iff, F. cbn [In]. split.
      * intros [[Y [I|I]]|(-> & _ & I)]; auto.
      * intros [[I|[I|[]]]|I].
        -- destruct (bytes_eq_dec y x) as [E|E]; [subst; contradiction|]. left. auto.
        -- right. subst. split; auto. split; auto. apply cell_some. exists b. exact K3.
        -- destruct (bytes_eq_dec y x) as [E|E]; [|left; auto]. right. subst. split; auto. split; auto. apply cell_some. exists b. exact K3.
    + rewrite map_app. apply rel_app; [exact RF|]. cbn [map]. apply rel_one. exact K1.
    + exact DN'.
    + rewrite map_app. cbn [map fst]. intros z I. apply in_app_or in I as [I|[I|[]]]; [rewrite M2; auto|subst; exact P].
  - unfold fresh. set (m' := m ++ [Some x]). set (p := length m).
    assert (G : grows m m') by apply grows_app. assert (P : rd m' p = Some x) by apply rd_fresh.
    exists m', (t ++ [(p, false)]), p. split; [reflexivity|]. split; [exact G|]. split; [exact P|].
    assert (PI : In p (map fst (t ++ [(p, false)]))) by (rewrite map_app; apply in_or_app; right; left; reflexivity).
    split; [exact PI|]. split; [rewrite map_app; intros z I; apply in_or_app; left; exact I|].
    assert (RF' : rel m' f (map un ns)) by (eapply rel_grows; eassumption).
    destruct (kinsert_rel m' f (map un ns) p x tt RF' P) as (bb & l2 & -> & R3 & B & L2 & _). rewrite un_fst in B.
    assert (bb = true) by (apply B; exact N). subst bb l2. split; [reflexivity|]. split; [|split; [|split]].
    + exists (t1 ++ [(x, false)]). split; [apply rel_app; [eapply rel_grows; eassumption|apply rel_one; exact P]|].
      apply cell_none in K. split.
      * rewrite map_app. cbn [map fst]. apply NoDup_rev in D. rewrite <- (rev_involutive (map fst t1 ++ [x])). apply NoDup_rev.
        rewrite rev_app_distr. constructor; auto. rewrite <- in_rev. exact K.
      * intros y. rewrite !in_app_iff. cbn [In]. rewrite F. split.
        -- intros [[I|I]|[I|[]]]; auto. injection I as ->. auto.
        -- intros [[I|[I|[]]]|I]; auto. subst. auto.
    + rewrite map_app. apply rel_app; [exact RF'|]. cbn [map]. apply rel_one. exact P.
    + exact DN'.
    + rewrite map_app. cbn [map fst]. intros z I. apply in_app_or in I as [I|[I|[]]].
      * rewrite map_app. apply in_or_app. left. auto.
      * subst. exact PI.
Qed.
Lemma push_dup m t f ns ex x : tinv m t f ns ex -> In x ns ->
  exists t' p, push_allocated m t x = Some (m, t', p) /\ kinsert m f p tt = Some (false, f).
Proof.
  intros ((t1 & R & D & F) & RF & DN & IN) N. unfold push_allocated.
  destruct (kfind_rel m t t1 x R) as (o & -> & K). destruct o as [[p b]|].
  - destruct K as (K1 & K2 & K3). destruct (kset_rel m t t1 x false R) as (t2 & -> & R2 & M2).
    exists t2, p. split; [reflexivity|].
    destruct (kinsert_rel m f (map un ns) p x tt RF K1) as (bb & l2 & -> & R3 & B & L2 & _). rewrite un_fst in B.
    destruct bb; [exfalso; apply B; auto|]. subst. reflexivity.
  - exfalso. apply cell_none in K. apply K. apply in_map_iff. exists (x, false). split; [reflexivity|]. apply F. auto.
Qed.

(** ** Models *)
Section Sim.
  Context {V : Type} (null : V).
  Notation mdl := (mdl V). Notation row := (row V).

  Definition drel (m : mem) (d : sdelta) (c : change) : Prop :=
    match d, c with DAdd p, Added x => rd m p = Some x | DRem p, Removed x => rd m p = Some x | _, _ => False end.
  Definition dptr (d : sdelta) : ptr := match d with DAdd p => p | DRem p => p end.
  Definition rowrel (m : mem) (t : table) (b : nat) (r : row) (n : nrow) : Prop :=
    rel m (r_cells r) (n_cells n) /\ r_ver r = n_seen n /\ incl (map fst (r_cells r)) (map fst t) /\ (N.of_nat b <= r_ver r + 1)%N.
  (** [b]: the changes before that number were made before the last start; no row looks at them any more *)
  Record inv (b : nat) (s : mdl) (n : nmdl) : Prop := mk_inv {
    i_tab : tinv (mm s) (tab s) (fields s) (names n) [];
    i_pk : rd (mm s) (pk s) = Some (key_name n);
    i_pkt : In (pk s) (map fst (tab s));
    i_pkn : In (key_name n) (names n);
    i_len : length (deltas s) = length (changes n);
    i_del : Forall2 (drel (mm s)) (skipn b (deltas s)) (skipn b (changes n));
    i_delt : incl (map dptr (skipn b (deltas s))) (map fst (tab s));
    i_b : b <= length (deltas s);
    i_rows : Forall2 (rowrel (mm s) (tab s) b) (rows s) (nrows n) }.

  Lemma drel_grows m m' d c : grows m m' -> drel m d c -> drel m' d c.
  Proof. intros G. destruct d, c; cbn [drel]; auto. Qed.
  Lemma rowrel_grows m m' t t' b r n : grows m m' -> incl (map fst t) (map fst t') -> rowrel m t b r n -> rowrel m' t' b r n.
  Proof.
    intros G I (R1 & R2 & R3 & R4). split; [eapply rel_grows; eassumption|]. split; [exact R2|]. split; [|exact R4].
    intros z J. auto.
  Qed.
  Lemma Forall2_impl {A B} (P Q : A -> B -> Prop) l l' : (forall a b, P a b -> Q a b) -> Forall2 P l l' -> Forall2 Q l l'.
  Proof. intros H F. induction F; constructor; auto. Qed.

  Lemma add_field_ok b s n x : inv b s n -> ~ In x (names n) ->
    exists s', add_field s x = Some (true, s') /\
      inv b s' (mk_nmdl (key_name n) (names n ++ [x]) (changes n ++ [Added x]) (nrows n)) /\ rows s' = rows s.
  Proof.
    intros I N. destruct I as [T P PT PN L D DT B R]. unfold add_field.
    destruct (push_new _ _ _ _ _ _ T N) as (m' & t' & p & -> & G & RP & IP & IT & -> & T').
    eexists. split; [reflexivity|]. split; [|reflexivity].
    constructor; cbn [mm tab pk fields deltas rows key_name names changes nrows].
    - exact T'.
    - apply G; exact P.
    - apply IT; exact PT.
    - apply in_or_app; left; exact PN.
    - rewrite !app_length. cbn [length]. congruence.
    - rewrite !skipn_app, (proj2 (Nat.sub_0_le _ _)), (proj2 (Nat.sub_0_le b (length (changes n)))) by lia.
      cbn [skipn]. apply Forall2_app; [|constructor; [exact RP|constructor]].
      eapply Forall2_impl; [|exact D]. intros a c. apply drel_grows; exact G.
    - rewrite skipn_app, (proj2 (Nat.sub_0_le _ _)) by lia. cbn [skipn]. rewrite map_app. cbn [map dptr].
      intros z J. apply in_app_or in J as [J|[J|[]]]; [auto|subst; exact IP].
    - rewrite app_length. lia.
    - eapply Forall2_impl; [|exact R]. intros r k. apply rowrel_grows; assumption.
  Qed.

  Lemma remove_field_ok b s n x : inv b s n -> In x (names n) -> x <> key_name n ->
    exists s', remove_field s x = Some (true, s') /\
      inv b s' (mk_nmdl (key_name n) (rest x (names n)) (changes n ++ [Removed x]) (nrows n)) /\ rows s' = rows s.
  Proof.
    intros I N NK. destruct I as [T P PT PN L D DT B R]. destruct T as ((t1 & RT & DD & F) & RF & DN & IN). unfold remove_field.
    destruct (kfind_rel _ _ _ x RF) as (o & -> & K).
    destruct o as [[q u]|]; [|apply cell_none in K; rewrite un_fst in K; contradiction].
    destruct (kdelete_rel _ _ _ x RF) as (f' & -> & RF' & IF'). rewrite un_without in RF'.
    unfold mark_pending_remove. destruct (kfind_rel _ _ _ x RT) as (o & -> & K').
    destruct o as [[p c]|].
    2:{ exfalso. apply cell_none in K'. apply K'. apply in_map_iff. exists (x, false). split; [reflexivity|]. apply F. auto. }
    destruct K' as (K1 & K2 & K3). destruct (kset_rel _ _ _ x true RT) as (t2 & -> & R2 & M2).
    eexists. split; [reflexivity|]. split; [|reflexivity].
    assert (IP : In p (map fst t2)) by (rewrite M2; apply in_map_iff; exists (p, c); auto).
    constructor; cbn [mm tab pk fields deltas rows key_name names changes nrows].
    - split; [|split; [|split]].
      + exists (with_value x true t1). split; [exact R2|]. split; [rewrite with_value_fst; exact DD|].
        intros y. rewrite in_with_value, in_rest, F. split.
        * intros [[Y [J|[]]]|(_ & J & _)]; [auto|discriminate J].
        * intros [[J Y]|[]]. left. auto.
      + exact RF'.
      + apply NoDup_filter. exact DN.
      + rewrite M2. intros z J. apply in_map_iff in J as (e & <- & J). apply IN. apply in_map. auto.
    - exact P.
    - rewrite M2; exact PT.
    - apply in_rest. auto.
    - rewrite !app_length. cbn [length]. congruence.
    - rewrite !skipn_app, (proj2 (Nat.sub_0_le _ _)), (proj2 (Nat.sub_0_le b (length (changes n)))) by lia.
      cbn [skipn]. apply Forall2_app; [exact D|constructor; [exact K1|constructor]].
    - rewrite skipn_app, (proj2 (Nat.sub_0_le _ _)) by lia. cbn [skipn]. rewrite map_app, M2. cbn [map dptr].
      intros z J. apply in_app_or in J as [J|[J|[]]]; [auto|subst; rewrite <- M2; exact IP].
    - rewrite app_length. lia.
    - eapply Forall2_impl; [|exact R]. intros r k. apply rowrel_grows; [apply grows_refl|]. rewrite M2. intros z J. exact J.
  Qed.

  (** *** Loops over names *)
  Lemma nodup_cons_inv (x : bytes) l : NoDup (x :: l) -> ~ In x l /\ NoDup l.
  Proof. intros D. inversion D; auto. Qed.
  Lemma adds_ok b l : forall s n, inv b s n -> NoDup l -> (forall x, In x l -> ~ In x (names n)) ->
    exists s', each add_field s l = Some s' /\ each_checked add_field s l = Some (Some s') /\
      inv b s' (mk_nmdl (key_name n) (names n ++ l) (changes n ++ map Added l) (nrows n)) /\ rows s' = rows s.
  Proof.
    induction l as [|x l IH]; intros s n I D H.
    - exists s. cbn [each each_checked map]. rewrite !app_nil_r. destruct n; auto.
    - apply nodup_cons_inv in D as [Nx D].
      destruct (add_field_ok b s n x I) as (s1 & E & I1 & R1); [apply H; left; reflexivity|].
      destruct (IH s1 _ I1 D) as (s2 & E2 & E3 & I2 & R2).
      { intros y Y. cbn [names]. rewrite in_app_iff. intros [J|[J|[]]]; [apply (H y); [right; exact Y|exact J]|subst; contradiction]. }
      exists s2. cbn [each each_checked]. rewrite E. split; [exact E2|]. split; [exact E3|]. split; [|congruence].
      cbn [key_name names changes nrows map] in *. rewrite <- !app_assoc in I2. exact I2.
  Qed.
  Lemma has_iff x l : has x l = true <-> In x l.
  Proof. unfold has. destruct (in_dec bytes_eq_dec x l); split; congruence || auto. Qed.
  Lemma has_no x l : has x l = false <-> ~ In x l.
  Proof. rewrite <- has_iff. destruct (has x l); split; congruence || auto. Qed.
  Lemma filter_filter {A} (f g : A -> bool) l : filter f (filter g l) = filter (fun x => g x && f x) l.
  Proof. induction l as [|x l IH]; cbn [filter]; auto. destruct (g x); cbn [filter andb]; [destruct (f x)|]; congruence. Qed.
  Lemma minus_cons l x r : minus l (x :: r) = minus (rest x l) r.
  Proof.
    unfold minus, rest. rewrite filter_filter. apply filter_ext. intros y.
    destruct (has y (x :: r)) eqn:H.
    - apply has_iff in H. destruct (bytes_eq_dec y x) as [E|E]; [reflexivity|]. destruct H as [H|H]; [congruence|]. apply has_iff in H. rewrite H. reflexivity.
    - apply has_no in H. destruct (bytes_eq_dec y x) as [E|E]; [exfalso; apply H; left; congruence|].
      assert (K : has y r = false) by (apply has_no; intros J; apply H; right; exact J). rewrite K. reflexivity.
  Qed.
  Lemma minus_nil l : minus l [] = l.
  Proof. unfold minus. induction l as [|x l IH]; cbn [filter]; auto. replace (has x []) with false by (symmetry; apply has_no; intros []). cbn [negb]. congruence. Qed.
  Lemma rems_ok b l : forall s n, inv b s n -> NoDup l -> (forall x, In x l -> In x (names n) /\ x <> key_name n) ->
    exists s', each remove_field s l = Some s' /\ each_checked remove_field s l = Some (Some s') /\
      inv b s' (mk_nmdl (key_name n) (minus (names n) l) (changes n ++ map Removed l) (nrows n)) /\ rows s' = rows s.
  Proof.
    induction l as [|x l IH]; intros s n I D H.
    - exists s. cbn [each each_checked map]. rewrite !app_nil_r, minus_nil. destruct n; auto.
    - apply nodup_cons_inv in D as [Nx D].
      destruct (H x (or_introl eq_refl)) as [Hx Kx].
      destruct (remove_field_ok b s n x I Hx Kx) as (s1 & E & I1 & R1).
      destruct (IH s1 _ I1 D) as (s2 & E2 & E3 & I2 & R2).
      { intros y Y. cbn [names key_name]. destruct (H y (or_intror Y)) as [Hy Ky]. split; [|exact Ky]. apply in_rest. split; [exact Hy|]. congruence. }
      exists s2. cbn [each each_checked]. rewrite E. split; [exact E2|]. split; [exact E3|]. split; [|congruence].
      cbn [key_name names changes nrows map] in *. rewrite <- !app_assoc in I2. rewrite minus_cons. exact I2.
  Qed.

  Lemma find_field b s n x : inv b s n -> exists o, kfind (mm s) (fields s) x = Some o /\
    (match o with Some (p, _) => In x (names n) /\ rd (mm s) p = Some x /\ In p (map fst (tab s)) | None => ~ In x (names n) end).
  Proof.
    intros I. destruct (i_tab _ _ _ I) as (_ & RF & _ & IN). destruct (kfind_rel _ _ _ x RF) as (o & -> & K). exists o. split; [reflexivity|].
    destruct o as [[p u]|].
    - destruct K as (K1 & K2 & K3). split; [|split; [exact K1|apply IN; apply in_map_iff; exists (p, u); auto]].
      rewrite <- (un_fst (names n)). apply cell_some. exists u. exact K3.
    - rewrite <- (un_fst (names n)). apply cell_none. exact K.
  Qed.
  Lemma existsb_same x l : existsb (same x) l = true <-> In x l.
  Proof. rewrite existsb_exists. split; [intros (y & I & E); apply same_iff in E; subst; exact I|]. intros I. exists x. split; auto. apply same_refl. Qed.
  Lemma add_checks_ok b s n : inv b s n -> forall l seen, exists v, add_checks s seen l = Some v /\
    (v = true <-> NoDup l /\ (forall x, In x l -> ~ In x (names n) /\ ~ In x seen)).
  Proof.
    intros I. induction l as [|x l IH]; intros sn; cbn [add_checks].
    - exists true. split; [reflexivity|]. split; [intros _; split; [constructor|intros x []]|auto].
    - destruct (find_field b s n x I) as (o & -> & K). rewrite (i_pk _ _ _ I).
      destruct (IH (x :: sn)) as (v & -> & W). eexists. split; [reflexivity|].
      rewrite !andb_true_iff, !negb_true_iff, W. split.
      + intros [[[H1 H2] H3] [H4 H5]]. split.
        * constructor; [|exact H4]. intros J. apply (H5 x J). left. reflexivity.
        * intros y [Y|Y]; [subst y|].
          -- split; [destruct o as [[p u]|]; [discriminate H1|exact K]|]. intros J. apply existsb_same in J. congruence.
          -- destruct (H5 y Y) as [A1 A2]. split; [exact A1|]. intros J. apply A2. right. exact J.
      + intros [D H]. apply nodup_cons_inv in D as [Nx D]. destruct (H x (or_introl eq_refl)) as [A1 A2].
        split; [split; [split|]|].
        * destruct o as [[p u]|]; [destruct K; contradiction|reflexivity].
        * apply same_no. intros <-. apply A1. exact (i_pkn _ _ _ I).
        * destruct (existsb (same x) sn) eqn:E; auto. apply existsb_same in E. contradiction.
        * split; [exact D|]. intros y Y. destruct (H y (or_intror Y)) as [B1 B2]. split; [exact B1|]. intros [J|J]; [subst; contradiction|auto].
  Qed.
  Lemma rem_checks_ok b s n : inv b s n -> forall l seen, exists v, rem_checks s seen l = Some v /\
    (v = true <-> NoDup l /\ (forall x, In x l -> (In x (names n) /\ x <> key_name n) /\ ~ In x seen)).
  Proof.
    intros I. induction l as [|x l IH]; intros sn; cbn [rem_checks].
    - exists true. split; [reflexivity|]. split; [intros _; split; [constructor|intros x []]|auto].
    - destruct (find_field b s n x I) as (o & -> & K). rewrite (i_pk _ _ _ I).
      destruct (IH (x :: sn)) as (v & -> & W). eexists. split; [reflexivity|].
      rewrite !andb_true_iff, !negb_true_iff, W. split.
      + intros [[[H1 H2] H3] [H4 H5]]. split.
        * constructor; [|exact H4]. intros J. apply (H5 x J). left. reflexivity.
        * intros y [Y|Y]; [subst y|].
          -- split; [split|]; [destruct o as [[p u]|]; [apply K|discriminate H1]| |].
             ++ intros ->. rewrite same_refl in H2. discriminate H2.
             ++ intros J. apply existsb_same in J. congruence.
          -- destruct (H5 y Y) as [A1 A2]. split; [exact A1|]. intros J. apply A2. right. exact J.
      + intros [D H]. apply nodup_cons_inv in D as [Nx D]. destruct (H x (or_introl eq_refl)) as [[A1 A1'] A2].
        split; [split; [split|]|].
        * destruct o as [[p u]|]; [reflexivity|contradiction].
        * apply same_no. intros E. apply A1'. symmetry; exact E.
        * destruct (existsb (same x) sn) eqn:E; auto. apply existsb_same in E. contradiction.
        * split; [exact D|]. intros y Y. destruct (H y (or_intror Y)) as [B1 B2]. split; [exact B1|]. intros [J|J]; [subst; contradiction|auto].
  Qed.
  Lemma alter_add_ok b s n l : inv b s n -> exists o, alter_add s l = Some o /\
    match o with
    | Some s' => ok_add n l /\ inv b s' (mk_nmdl (key_name n) (names n ++ l) (changes n ++ map Added l) (nrows n))
    | None => ~ ok_add n l
    end.
  Proof.
    intros I. unfold alter_add, ok_add. destruct (add_checks_ok b s n I l []) as (v & -> & W). destruct v.
    - destruct (proj1 W eq_refl) as [D H]. assert (H' : forall x, In x l -> ~ In x (names n)) by (intros x J; apply (H x J)).
      destruct (adds_ok b l s n I D H') as (s' & -> & _ & I' & _). exists (Some s'). auto.
    - exists None. split; [reflexivity|]. intros [D H]. enough (false = true) by congruence. apply W. split; [exact D|].
      intros x J. split; [apply H; exact J|intros []].
  Qed.
  Lemma alter_rem_ok b s n l : inv b s n -> exists o, alter_rem s l = Some o /\
    match o with
    | Some s' => ok_rem n l /\ inv b s' (mk_nmdl (key_name n) (minus (names n) l) (changes n ++ map Removed l) (nrows n))
    | None => ~ ok_rem n l
    end.
  Proof.
    intros I. unfold alter_rem, ok_rem. destruct (rem_checks_ok b s n I l []) as (v & -> & W). destruct v.
    - destruct (proj1 W eq_refl) as [D H]. assert (H' : forall x, In x l -> In x (names n) /\ x <> key_name n) by (intros x J; apply (H x J)).
      destruct (rems_ok b l s n I D H') as (s' & -> & _ & I' & _). exists (Some s'). auto.
    - exists None. split; [reflexivity|]. intros [D H]. enough (false = true) by congruence. apply W. split; [exact D|].
      intros x J. split; [apply H; exact J|intros []].
  Qed.

  (** *** Rows *)
  Lemma apply_ok m ds cs : Forall2 (drel m) ds cs -> forall c n, rel m c n ->
    exists c', apply_deltas null m ds c = Some c' /\ rel m c' (fold_left (follow null) cs n) /\
      incl (map fst c') (map fst c ++ map dptr ds).
  Proof.
    intros F. induction F as [|d e ds cs H F IH]; intros c n R; cbn [apply_deltas fold_left].
    - exists c. split; [reflexivity|]. split; [exact R|]. cbn [map]. rewrite app_nil_r. intros z I; exact I.
    - destruct d as [p|p], e as [x|x]; cbn [drel] in H; try contradiction.
      + destruct (kinsert_rel m c n p x null R H) as (b & c1 & -> & R1 & _ & _ & I1).
        destruct (IH c1 _ R1) as (c2 & E & R2 & I2). exists c2. split; [exact E|]. split; [exact R2|].
        cbn [map dptr]. intros z J. apply I2 in J. apply in_app_or in J as [J|J]; apply in_or_app; [|right; right; exact J].
        apply I1 in J as [J|J]; [right; left; exact J|left; exact J].
      + rewrite H. destruct (kdelete_rel m c n x R) as (c1 & -> & R1 & I1).
        destruct (IH c1 _ R1) as (c2 & E & R2 & I2). exists c2. split; [exact E|]. split; [exact R2|].
        cbn [map dptr]. intros z J. apply I2 in J. apply in_app_or in J as [J|J]; apply in_or_app; [|right; right; exact J].
        left. apply in_map_iff in J as (e & <- & J). apply in_map. auto.
  Qed.
  Lemma Forall2_skipn {A B} (P : A -> B -> Prop) l l' : Forall2 P l l' -> forall k, Forall2 P (skipn k l) (skipn k l').
  Proof. intros F. induction F; intros [|k]; cbn [skipn]; auto; constructor; auto. Qed.
  Lemma skipn_more {A} (l : list A) : forall b k, b <= k -> skipn k l = skipn (k - b) (skipn b l).
  Proof.
    induction l as [|a l IH]; intros b k H; [rewrite !skipn_nil; reflexivity|].
    - destruct b; [rewrite Nat.sub_0_r; reflexivity|]. destruct k; [lia|]. cbn [skipn Nat.sub]. apply IH. lia.
  Qed.
  Lemma skipn_incl {A} k (l : list A) : incl (skipn k l) l.
  Proof. revert k. induction l as [|a l IH]; intros [|k] z I; cbn [skipn] in I; auto. right. eapply IH. exact I. Qed.

  Lemma resolve_ok m t b ds cs r n : length ds = length cs -> Forall2 (drel m) (skipn b ds) (skipn b cs) ->
    incl (map dptr (skipn b ds)) (map fst t) -> b <= length ds -> rowrel m t b r n ->
    exists r', resolve null m ds r = Some r' /\ rowrel m t b r' (up_to_date null cs n) /\ (version ds <= r_ver r' + 1)%N.
  Proof.
    intros L F I B (R1 & R2 & R3 & R4). unfold resolve, up_to_date, version. rewrite L, <- R2.
    destruct (N.leb_spec (N.of_nat (length cs)) (r_ver r)) as [H|H].
    { exists r. split; [reflexivity|]. split; [split; auto|lia]. }
    unfold since. set (k := N.to_nat (r_ver r + 1)).
    assert (K : b <= k) by (unfold k; lia).
    assert (F' : Forall2 (drel m) (skipn k ds) (skipn k cs)).
    { rewrite (skipn_more ds b k K), (skipn_more cs b k K). apply Forall2_skipn. exact F. }
    destruct (apply_ok m _ _ F' _ _ R1) as (c & -> & RC & IC).
    assert (LE : length (skipn k ds) = length (skipn k cs)) by (rewrite !skipn_length; congruence).
    assert (OWN : incl (map fst c) (map fst t)).
    { intros z J. apply IC in J. apply in_app_or in J as [J|J]; [auto|]. apply I. rewrite (skipn_more ds b k K) in J.
      apply in_map_iff in J as (d & <- & J). apply in_map. eapply skipn_incl. exact J. }
    destruct (skipn k ds) as [|d tl] eqn:SD, (skipn k cs) as [|e tl'] eqn:SC; try discriminate LE.
    - eexists. split; [reflexivity|]. cbn [fold_left] in RC. split; [split; [exact RC|]; auto|].
      cbn [r_ver]. assert (Z : length (skipn k cs) = 0) by (rewrite SC; reflexivity). rewrite skipn_length in Z. unfold k in Z. lia.
    - eexists. split; [reflexivity|]. split; [|cbn [r_ver]; lia]. split; [exact RC|]. split; [reflexivity|]. split; [exact OWN|].
      cbn [r_ver]. lia.
  Qed.

  Lemma set_row_put (l : list row) i r : set_row l i r = put l i r.
  Proof.
    revert i. induction l as [|a l IH]; intros i; cbn [set_row].
    - unfold put. destruct i; reflexivity.
    - destruct i; cbn [put firstn skipn app]; [reflexivity|]. rewrite IH. reflexivity.
  Qed.
  Lemma Forall2_put {A B} (P : A -> B -> Prop) l l' i a b : Forall2 P l l' -> P a b -> Forall2 P (put l i a) (put l' i b).
  Proof.
    intros F H. revert i. induction F as [|x y l l' H' F IH]; intros i.
    - unfold put. destruct i; cbn [firstn skipn app]; constructor.
    - destruct i; unfold put; cbn [firstn skipn app]; constructor; auto. apply (IH i).
  Qed.
  Lemma Forall2_nth {A B} (P : A -> B -> Prop) l l' i : Forall2 P l l' ->
    match nth_error l i with Some a => exists b, nth_error l' i = Some b /\ P a b | None => nth_error l' i = None end.
  Proof. intros F. revert i. induction F as [|x y l l' H F IH]; intros [|i]; cbn [nth_error]; auto; [exists y; auto|exact (IH i)]. Qed.

  Definition show (g : got V) : seen := match g with GCell v => SCell v | GKey => SKey | GNone => SNone end.
  Lemma names_of_ok m f ns : rel m f (map un ns) -> names_of m f = Some ns.
  Proof.
    revert ns. induction f as [|[p u] f IH]; intros [|x ns] R; cbn [map] in R; inversion R as [|? ? ? ? [H1 H2] R']; subst; cbn [names_of]; auto.
    cbn [fst un] in H1. rewrite H1, (IH ns R'). reflexivity.
  Qed.
  Lemma read_names_ok b s n c nc : inv b s n -> rel (mm s) c nc -> forall l,
    exists gs, read_names (mm s) (pk s) c l = Some gs /\ map show gs = map (look n nc) l.
  Proof.
    intros I R. induction l as [|x l (gs & E & M)]; cbn [read_names].
    - exists []. auto.
    - unfold read_name. destruct (kfind_rel _ _ _ x R) as (o & -> & K). rewrite E.
      destruct o as [[p v]|].
      + exists (GCell v :: gs). cbn [map show]. unfold look at 1. destruct K as (_ & _ & ->). split; [reflexivity|]. f_equal. exact M.
      + rewrite (i_pk _ _ _ I). unfold same. eexists. split; [reflexivity|]. cbn [map]. f_equal; [|exact M].
        unfold look. rewrite K. destruct (bytes_eq_dec x (key_name n)); reflexivity.
  Qed.
  Lemma inv_rows b s n rs ns : inv b s n -> Forall2 (rowrel (mm s) (tab s) b) rs ns ->
    inv b (mk_mdl (mm s) (tab s) (pk s) (fields s) (deltas s) rs) (mk_nmdl (key_name n) (names n) (changes n) ns).
  Proof. intros [T P PT PN L D DT B R] F. constructor; assumption. Qed.

  Lemma read_row_ok b s n i w : inv b s n ->
    exists s' gs, read_row null s i w = Some (s', gs) /\
      match nth_error (nrows n) i with
      | None => s' = s /\ gs = []
      | Some r => inv b s' (mk_nmdl (key_name n) (names n) (changes n) (put (nrows n) i (up_to_date null (changes n) r))) /\
        map show gs = map (look n (n_cells (up_to_date null (changes n) r))) (match w with Some l => l | None => names n end)
      end.
  Proof.
    intros I. unfold read_row. pose proof (Forall2_nth _ _ _ i (i_rows _ _ _ I)) as H.
    destruct (nth_error (rows s) i) as [r|]; [|rewrite H; exists s, []; auto].
    destruct H as (k & -> & RR).
    destruct (resolve_ok _ _ _ _ _ _ _ (i_len _ _ _ I) (i_del _ _ _ I) (i_delt _ _ _ I) (i_b _ _ _ I) RR) as (r' & -> & RR' & _).
    assert (NM : exists l, (match w with Some l => Some l | None => names_of (mm s) (fields s) end) = Some l /\ l = match w with Some l => l | None => names n end).
    { destruct w as [l|]; [exists l; auto|]. exists (names n). split; auto. apply names_of_ok. apply (i_tab _ _ _ I). }
    destruct NM as (l & -> & ->).
    destruct (read_names_ok b s n _ _ I (proj1 RR') (match w with Some l => l | None => names n end)) as (gs & -> & M).
    eexists _, gs. split; [reflexivity|]. split; [|exact M]. apply inv_rows; [exact I|]. rewrite set_row_put.
    apply Forall2_put; [exact (i_rows _ _ _ I)|exact RR'].
  Qed.

  Lemma assign_ok b s n : inv b s n -> forall l c nc, rel (mm s) c nc -> incl (map fst c) (map fst (tab s)) ->
    exists o, assign (mm s) (fields s) c l = Some o /\
      match o with
      | Some c' => exists nc', assigned n nc l = Some nc' /\ rel (mm s) c' nc' /\ incl (map fst c') (map fst (tab s))
      | None => assigned n nc l = None
      end.
  Proof.
    intros I. induction l as [|[x v] l IH]; intros c nc R IC; cbn [assign assigned].
    - exists (Some c). split; [reflexivity|]. exists nc. auto.
    - destruct (find_field b s n x I) as (o1 & -> & K1). destruct (kfind_rel _ _ _ x R) as (o2 & -> & K2).
      destruct o1 as [[p u]|].
      + rewrite (proj2 (has_iff x (names n)) (proj1 K1)). destruct o2 as [[q v']|].
        * destruct K2 as (_ & _ & ->). destruct (kset_rel _ _ _ x v R) as (c1 & -> & R1 & M1).
          apply IH; [exact R1|]. rewrite M1. exact IC.
        * rewrite K2. exists None. auto.
      + rewrite (proj2 (has_no x (names n)) K1). exists None. auto.
  Qed.
  Lemma update_ok b s n i l : inv b s n -> exists o, update s i l = Some o /\
    match o with
    | Some s' => exists r c, nth_error (nrows n) i = Some r /\ assigned n (n_cells r) l = Some c /\
        inv b s' (mk_nmdl (key_name n) (names n) (changes n) (put (nrows n) i (mk_nrow c (n_seen r))))
    | None => forall r, nth_error (nrows n) i = Some r -> assigned n (n_cells r) l = None
    end.
  Proof.
    intros I. unfold update. pose proof (Forall2_nth _ _ _ i (i_rows _ _ _ I)) as H.
    destruct (nth_error (rows s) i) as [r|].
    2:{ exists None. split; [reflexivity|]. intros r E. congruence. }
    destruct H as (k & E & (R1 & R2 & R3 & R4)).
    destruct (assign_ok b s n I l _ _ R1 R3) as (o & -> & K). destruct o as [c|].
    - destruct K as (nc & A & RC & IC). eexists. split; [reflexivity|]. exists k, nc. split; [exact E|]. split; [exact A|].
      apply inv_rows; [exact I|]. rewrite set_row_put. apply Forall2_put; [exact (i_rows _ _ _ I)|].
      split; [exact RC|]. split; [exact R2|]. split; [exact IC|exact R4].
    - exists None. split; [reflexivity|]. intros r' E'. rewrite E in E'. injection E' as <-. exact K.
  Qed.

  (** *** INSERT *)
  Lemma with_new_fresh {A} x (v : A) c : ~ In x (map fst c) -> with_new x v c = c ++ [(x, v)].
  Proof. intros H. unfold with_new. apply cell_none in H. rewrite H. reflexivity. Qed.
  Lemma tuple_ok m (t : table) : forall f ns, rel m f (map un ns) -> incl (map fst f) (map fst t) -> forall (vs : list V) c nc, rel m c nc -> incl (map fst c) (map fst t) ->
    NoDup (map fst nc ++ ns) ->
    exists c', prepare_tuple m f vs c = Some c' /\ rel m c' (nc ++ combine ns vs) /\ incl (map fst c') (map fst t).
  Proof.
    induction f as [|[p u] f IH]; intros [|x ns] R IF vs c nc RC IC D; cbn [map] in R; try (exfalso; inversion R; fail).
    - exists c. cbn [prepare_tuple combine]. rewrite app_nil_r. auto.
    - inversion R as [|? ? ? ? [H1 H2] R']; subst. cbn [fst un] in H1.
      destruct vs as [|v vs]; cbn [prepare_tuple combine]; [exists c; rewrite app_nil_r; auto|].
      destruct (kinsert_rel m c nc p x v RC H1) as (bb & c1 & -> & R1 & _ & _ & I1).
      assert (NX : ~ In x (map fst nc)). { intros J. apply NoDup_remove_2 in D. apply D. apply in_or_app. left. exact J. }
      rewrite with_new_fresh in R1 by exact NX.
      destruct (IH ns R' (fun z J => IF z (or_intror J)) vs c1 _ R1) as (c2 & E & R2 & I2).
      + intros z J. apply I1 in J as [J|J]; [subst; apply IF; left; reflexivity|auto].
      + rewrite map_app, <- app_assoc. cbn [map fst app]. exact D.
      + exists c2. split; [exact E|]. rewrite <- app_assoc in R2. auto.
  Qed.
  Lemma map_ok b s n : inv b s n -> forall (vs : list (bytes * V)) c nc, rel (mm s) c nc -> incl (map fst c) (map fst (tab s)) ->
    exists o, prepare_map (mm s) (fields s) vs c = Some o /\
      match o with
      | Some c' => forallb (fun e => has (fst e) (names n)) vs = true /\
          rel (mm s) c' (fold_left (fun c e => with_new (fst e) (snd e) c) vs nc) /\ incl (map fst c') (map fst (tab s))
      | None => forallb (fun e => has (fst e) (names n)) vs = false
      end.
  Proof.
    intros I. induction vs as [|[x v] vs IH]; intros c nc R IC; cbn [prepare_map forallb fold_left fst snd].
    - exists (Some c). auto.
    - destruct (find_field b s n x I) as (o & -> & K). destruct o as [[p u]|].
      + destruct K as (K1 & K2 & K3). rewrite (proj2 (has_iff _ _) K1).
        destruct (kinsert_rel _ c nc p x v R K2) as (bb & c1 & -> & R1 & _ & _ & I1). cbn [andb]. apply IH; [exact R1|].
        intros z J. apply I1 in J as [J|J]; [subst; exact K3|auto].
      + rewrite (proj2 (has_no _ _) K). exists None. auto.
  Qed.
  Lemma fold_new_in (vs : list (bytes * V)) nc x : In x (map fst (fold_left (fun c e => with_new (fst e) (snd e) c) vs nc)) <-> In x (map fst nc) \/ In x (map fst vs).
  Proof.
    revert nc. induction vs as [|[y v] vs IH]; intros nc; cbn [fold_left map fst snd In]; [tauto|].
    rewrite IH, with_new_in. split; intros H; intuition congruence.
  Qed.
  Definition vals (d : insdata V) : values := match d with Tuple vs => ByPlace vs | Named vs => ByName vs end.
  Lemma insert_ok b s n d : inv b s n -> exists o, insert s d = Some o /\
    match o with
    | Some s' => exists c, new_cells n (vals d) = Some c /\
        inv b s' (mk_nmdl (key_name n) (names n) (changes n) (nrows n ++ [mk_nrow c (N.of_nat (length (changes n)))]))
    | None => new_cells n (vals d) = None
    end.
  Proof.
    intros I. unfold insert. destruct (i_tab _ _ _ I) as (_ & RF & DN & IN).
    assert (LF : length (fields s) = length (names n)) by (rewrite (rel_len _ _ _ RF), map_length; reflexivity).
    assert (FIN : forall c nc, rel (mm s) c nc -> incl (map fst c) (map fst (tab s)) ->
      exists g c', kfind (mm s) c (key_name n) = Some g /\ kdelete (mm s) c (key_name n) = Some c' /\
        (g = None <-> ~ In (key_name n) (map fst nc)) /\
        inv b (mk_mdl (mm s) (tab s) (pk s) (fields s) (deltas s) (rows s ++ [mk_row c' (version (deltas s))]))
          (mk_nmdl (key_name n) (names n) (changes n) (nrows n ++ [mk_nrow (without (key_name n) nc) (N.of_nat (length (changes n)))]))).
    { intros c nc R IC. destruct (kfind_rel _ _ _ (key_name n) R) as (g & -> & K). destruct (kdelete_rel _ _ _ (key_name n) R) as (c' & -> & R' & I').
      exists g, c'. split; [reflexivity|]. split; [reflexivity|]. split.
      - destruct g as [[p v]|]; [|apply cell_none in K; tauto]. destruct K as (_ & _ & K). split; [intros Q; discriminate Q|].
        intros N. exfalso. apply N. apply cell_some. exists v. exact K.
      - apply inv_rows; [exact I|]. apply Forall2_app; [exact (i_rows _ _ _ I)|]. constructor; [|constructor].
        split; [exact R'|]. split; [cbn [r_ver n_seen]; unfold version; rewrite (i_len _ _ _ I); reflexivity|]. split.
        + cbn [r_cells]. intros z J. apply in_map_iff in J as (e & <- & J). apply IC. apply in_map. auto.
        + cbn [r_ver]. pose proof (i_b _ _ _ I). unfold version. lia. }
    destruct d as [vs|vs]; cbn [vals new_cells]; rewrite LF.
    - destruct (Nat.eqb_spec (length vs) (length (names n))) as [E|E]; [|exists None; auto].
      destruct (tuple_ok (mm s) (tab s) _ _ RF IN vs [] [] (rel_nil _) (fun z J => match J with end) DN) as (c & -> & R & IC).
      cbn [app] in R. destruct (FIN c _ R IC) as (g & c' & G1 & G2 & G3 & G4). rewrite (i_pk _ _ _ I), G1, G2.
      destruct g as [g|].
      + eexists. split; [reflexivity|]. eexists. split; [reflexivity|]. exact G4.
      + exfalso. apply (proj1 G3 eq_refl).
        assert (MF : map fst (combine (names n) vs) = names n).
        { clear - E. revert vs E. induction (names n) as [|x l IH]; intros [|v vs] E; cbn [combine map fst length] in *; auto; try discriminate E. f_equal. apply IH. congruence. }
        rewrite MF. exact (i_pkn _ _ _ I).
    - destruct (Nat.eqb_spec (length vs) (length (names n))) as [E|E]; cbn [andb]; [|exists None; auto].
      destruct (map_ok b s n I vs [] [] (rel_nil _) (fun z J => match J with end)) as (o & -> & K). destruct o as [c|].
      + destruct K as (FB & R & IC). rewrite FB. cbn [andb]. destruct (FIN c _ R IC) as (g & c' & G1 & G2 & G3 & G4). rewrite (i_pk _ _ _ I), G1, G2.
        rewrite fold_new_in in G3. cbn [map In] in G3.
        assert (EX : existsb (fun e : bytes * V => if bytes_eq_dec (fst e) (key_name n) then true else false) vs = true <-> In (key_name n) (map fst vs)).
        { rewrite existsb_exists, in_map_iff. split; intros ((y & v) & J1 & J2); exists (y, v); cbn [fst] in *.
          - destruct (bytes_eq_dec y (key_name n)); [auto|discriminate J2].
          - split; [auto|]. destruct (bytes_eq_dec y (key_name n)); congruence. }
        destruct g as [g|].
        * destruct (existsb _ vs) eqn:EE.
          -- eexists. split; [reflexivity|]. eexists. split; [reflexivity|]. exact G4.
          -- exfalso. assert (Some g = None); [|discriminate]. apply G3. intros [[]|J]. apply EX in J. discriminate J.
        * exists None. split; [reflexivity|]. destruct (existsb _ vs) eqn:EE; auto. exfalso. apply (proj1 G3 eq_refl). right. apply EX. reflexivity.
      + rewrite K. exists None. auto.
  Qed.
End Sim.
