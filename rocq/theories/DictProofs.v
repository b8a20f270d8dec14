(** Lemmas about dictionary patches. *)
From Coq Require Import List Bool.
From Verif Require Import Bytes AMap DataModel CodecModel DictModel.
Import ListNotations.

(** ** Specification vocabulary: a dictionary seen through its paths *)

(** what a path leads to *)
Inductive leaf := LCell (c : cell) | LMap.

(** the leaf at the end of a path *)
Fixpoint look (p : list bytes) (e : dentry) : option leaf :=
  match p, e with
  | [], DData c => Some (LCell c)
  | [], DMap _ => Some LMap
  | k :: p', DMap d => match dget k d with Some e' => look p' e' | None => None end
  | _ :: _, DData _ => None
  end.
Definition look_o (p : list bytes) (e : option dentry) : option leaf :=
  match e with Some e => look p e | None => None end.

(** the entry below a key *)
Definition sub (k : bytes) (e : option dentry) : option dentry :=
  match e with Some (DMap d) => dget k d | _ => None end.

(** no key occurs twice, at any depth: every Rust [HashMap] *)
Inductive entry_nd : dentry -> Prop :=
| nd_data c : entry_nd (DData c)
| nd_map d : NoDup (map fst d) -> Forall (fun kv => entry_nd (snd kv)) d -> entry_nd (DMap d).
Definition dict_nd (d : dict) : Prop := entry_nd (DMap d).

(** What a user expects of "apply [new] to [cur]": null deletes, a value replaces, a map is merged
    key by key, everything not mentioned is kept. *)
Fixpoint want (p : list bytes) (new cur : option dentry) : option leaf :=
  match new with
  | None => look_o p cur
  | Some (DData c) => if cell_init c then look p (DData c) else None
  | Some (DMap m) =>
      match p with
      | [] => Some LMap
      | k :: p' => want p' (dget k m) (sub k cur)
      end
  end.

(** What the code does: as [want], except that a value written over a map deletes the map and a map
    written under a missing key is lost. *)
Fixpoint got (p : list bytes) (new cur : option dentry) : option leaf :=
  match new with
  | None => look_o p cur
  | Some (DData c) =>
      match cur with
      | Some (DMap _) => None
      | _ => if cell_init c then look p (DData c) else None
      end
  | Some (DMap m) =>
      match cur with
      | None => None
      | _ =>
        match p with
        | [] => Some LMap
        | k :: p' => got p' (dget k m) (sub k cur)
        end
      end
  end.

(** a patch is acceptable: values keep their kind, maps are not put over values *)
Definition acceptable (cur new : dict) : Prop :=
  forall p l t, look p (DMap new) = Some l -> look p (DMap cur) = Some (LCell t) ->
    match l with
    | LCell c => cell_init c = true -> cell_class t = cell_class c
    | LMap => False
    end.

(** the patch brings no new map and puts no value over a map *)
Definition no_new_maps (cur new : dict) : Prop :=
  forall p l, look p (DMap new) = Some l ->
    match l with
    | LMap => look p (DMap cur) = Some LMap
    | LCell c => cell_init c = true -> look p (DMap cur) <> Some LMap
    end.

(** ** Basic facts *)

Lemma dget_put_same k v (m : dict) : dget k (aput bseq k v m) = Some v.
Proof. apply aget_put_same. exact bseq_eq. Qed.
Lemma dget_put_other k k' v (m : dict) : k <> k' -> dget k (aput bseq k' v m) = dget k m.
Proof. apply aget_put_other. exact bseq_eq. Qed.
Lemma dget_set_same k v (m : dict) : dget k (aset bseq k v m) = v.
Proof. apply aget_set_same. exact bseq_eq. Qed.
Lemma dget_set_other k k' v (m : dict) : k <> k' -> dget k (aset bseq k' v m) = dget k m.
Proof. apply aget_set_other. exact bseq_eq. Qed.
Lemma dget_in k v (m : dict) : dget k m = Some v -> In (k, v) m.
Proof. apply aget_in. exact bseq_eq. Qed.
Lemma in_dget k v (m : dict) : NoDup (map fst m) -> In (k, v) m -> dget k m = Some v.
Proof. apply in_aget. exact bseq_eq. Qed.
Lemma dget_none k (m : dict) : dget k m = None <-> ~ In k (map fst m).
Proof. apply aget_none. exact bseq_eq. Qed.
Lemma dget_cons k k' v (m : dict) : dget k ((k', v) :: m) = if bseq k k' then Some v else dget k m.
Proof. reflexivity. Qed.

Lemma dget_nd k v (d : dict) : dict_nd d -> dget k d = Some v -> entry_nd v.
Proof.
  intros H G. apply dget_in in G. inversion H as [|? _ F]; subst.
  rewrite Forall_forall in F. apply (F _ G).
Qed.

Lemma prep_entry_map m cur : prep_entry (DMap m) cur =
  match cur with
  | Some (DData _) => (false, None)
  | Some (DMap c) => let '(ok, p) := prep_loop m c [] in (ok, Some (DMap p))
  | None => let '(ok, p) := prep_loop m [] [] in (ok, Some (DMap p))
  end.
Proof.
  assert (X : forall m c p,
    (fix go (m : list (bytes * dentry)) (c p : dict) : bool * dict :=
        match m with
        | [] => (true, p)
        | (k, e) :: m' =>
            let '(ok, pe) := prep_entry e (dget k c) in
            let p' := match pe with Some pe => aput bseq k pe p | None => p end in
            if ok then go m' c p' else (false, p')
        end) m c p = prep_loop m c p).
  { clear. induction m as [|[k e] m IH]; intros c p; [reflexivity|]. cbn [prep_loop].
    destruct (prep_entry e (dget k c)) as [[|] pe]; [apply IH|reflexivity]. }
  cbn [prep_entry]. rewrite !X. destruct cur as [[?|?]|]; try reflexivity; rewrite X; reflexivity.
Qed.

Lemma merge_entry_map m cur : merge_entry (DMap m) cur =
  match cur with
  | Some (DMap c) => match merge c m with Some d => Some (Some (DMap d)) | None => None end
  | Some (DData _) => None
  | None => match merge [] m with Some _ => Some None | None => None end
  end.
Proof.
  assert (X : forall m c,
    (fix go (m : list (bytes * dentry)) (c : dict) : option dict :=
        match m with
        | [] => Some c
        | (k, e) :: m' =>
            match merge_entry e (dget k c) with
            | None => None
            | Some r => go m' (aset bseq k r c)
            end
        end) m c = merge c m).
  { clear. induction m as [|[k e] m IH]; intros c; [reflexivity|]. cbn [merge].
    destruct (merge_entry e (dget k c)); [apply IH|reflexivity]. }
  cbn [merge_entry]. destruct cur as [[?|?]|]; try reflexivity; rewrite X; reflexivity.
Qed.

(** ** The preparation loop *)

Lemma prep_loop_ok : forall new c p p', prep_loop new c p = (true, p') ->
  forall k e, In (k, e) new -> fst (prep_entry e (dget k c)) = true.
Proof.
  induction new as [|[k e] new IH]; intros c p p' H k0 e0; [intros []|]. cbn [prep_loop] in H.
  destruct (prep_entry e (dget k c)) as [[|] pe] eqn:E; [|discriminate].
  intros [[= <- <-]|X]; [rewrite E; reflexivity|eapply IH; eauto].
Qed.

Lemma prep_loop_all : forall new c p,
  (forall k e, In (k, e) new -> fst (prep_entry e (dget k c)) = true) ->
  exists p', prep_loop new c p = (true, p').
Proof.
  induction new as [|[k e] new IH]; intros c p H; [eexists; reflexivity|]. cbn [prep_loop].
  pose proof (H k e (or_introl eq_refl)) as E. destruct (prep_entry e (dget k c)) as [ok pe]. cbn in E.
  subst ok. apply IH. intros; apply H; right; assumption.
Qed.

Lemma prep_loop_get : forall new c p p', prep_loop new c p = (true, p') ->
  NoDup (map fst new) -> (forall k, In k (map fst new) -> dget k p = None) ->
  forall k, dget k p' = match dget k new with
                        | Some e => snd (prep_entry e (dget k c))
                        | None => dget k p
                        end.
Proof.
  induction new as [|[k e] new IH]; intros c p p' H ND D k0.
  - injection H as <-. reflexivity.
  - cbn [prep_loop] in H. destruct (prep_entry e (dget k c)) as [[|] pe] eqn:E; [|discriminate].
    cbn [map fst] in ND. inversion ND as [|? ? N1 N2]; subst.
    assert (D' : forall k', In k' (map fst new) ->
              dget k' (match pe with Some pe => aput bseq k pe p | None => p end) = None).
    { intros k' I. assert (k' <> k) by (intros ->; auto).
      destruct pe; [rewrite dget_put_other by auto|]; apply D; right; auto. }
    rewrite (IH _ _ _ H N2 D'). rewrite dget_cons.
    destruct (bseq k0 k) eqn:B.
    + apply bseq_eq in B. subst k0. rewrite (proj2 (dget_none k new) N1), E. cbn [snd].
      destruct pe; [apply dget_put_same|]. apply D. left; reflexivity.
    + apply bseq_neq in B. destruct (dget k0 new); [reflexivity|].
      destruct pe; [apply dget_put_other; auto|reflexivity].
Qed.

Lemma prep_loop_nd : forall new c p p' ok, prep_loop new c p = (ok, p') ->
  NoDup (map fst p) -> NoDup (map fst p').
Proof.
  induction new as [|[k e] new IH]; intros c p p' ok H ND; [injection H as <- <-; auto|].
  cbn [prep_loop] in H. destruct (prep_entry e (dget k c)) as [[|] pe].
  - apply (IH _ _ _ _ H). destruct pe; [apply (nodup_put bseq bseq_eq)|]; auto.
  - injection H as _ <-. destruct pe; [apply (nodup_put bseq bseq_eq)|]; auto.
Qed.

(** ** The merge loop *)

Lemma merge_get : forall patch cur d, merge cur patch = Some d -> NoDup (map fst patch) ->
  forall k, match dget k patch with
            | Some e => merge_entry e (dget k cur) = Some (dget k d)
            | None => dget k d = dget k cur
            end.
Proof.
  induction patch as [|[k e] patch IH]; intros cur d H ND k0.
  - injection H as <-. reflexivity.
  - cbn [merge] in H. destruct (merge_entry e (dget k cur)) as [r|] eqn:E; [|discriminate].
    cbn [map fst] in ND. inversion ND as [|? ? N1 N2]; subst.
    specialize (IH _ _ H N2 k0). rewrite dget_cons. destruct (bseq k0 k) eqn:B.
    + apply bseq_eq in B. subst k0. rewrite (proj2 (dget_none k patch) N1) in IH.
      rewrite dget_set_same in IH. congruence.
    + apply bseq_neq in B. rewrite dget_set_other in IH by auto. exact IH.
Qed.

Lemma merge_total : forall patch cur, NoDup (map fst patch) ->
  (forall k e, In (k, e) patch -> exists r, merge_entry e (dget k cur) = Some r) ->
  exists d, merge cur patch = Some d.
Proof.
  induction patch as [|[k e] patch IH]; intros cur ND H; [eexists; reflexivity|].
  cbn [merge]. destruct (H k e (or_introl eq_refl)) as [r E]. rewrite E.
  cbn [map fst] in ND. inversion ND as [|? ? N1 N2]; subst. apply IH; auto.
  intros k' e' I. rewrite dget_set_other; [apply H; right; auto|].
  intros ->. apply N1. change k with (fst (k, e')). apply in_map. auto.
Qed.

(** ** One entry: preparation followed by merging *)

Definition comb (pe cur : option dentry) : option (option dentry) :=
  match pe with Some pe => merge_entry pe cur | None => Some cur end.

Lemma prep_comb e : entry_nd e -> forall cur pe, prep_entry e cur = (true, pe) ->
  exists r, comb pe cur = Some r /\ forall p, look_o p r = got p (Some e) cur.
Proof.
  induction e as [n|m IH] using dentry_ind'; intros ND cur pe H.
  - destruct n as [|b|q w|b|b|l]; destruct cur as [[t|c]|]; cbn [prep_entry cell_init] in H;
    repeat match type of H with (if ?x then _ else _) = _ => destruct x; [|discriminate] end;
    injection H as <-; (eexists; split; [reflexivity|]); intros [|k p]; reflexivity.
  - inversion ND as [|? N1 N2]; subst. rewrite prep_entry_map in H.
    assert (KEY : forall c p, prep_loop m c [] = (true, p) ->
      exists d, merge c p = Some d /\
        forall k q, look_o q (dget k d) = got q (dget k m) (dget k c)).
    { intros c p L. pose proof (prep_loop_nd _ _ _ _ _ L (NoDup_nil _)) as NP.
      pose proof (prep_loop_get _ _ _ _ L N1 (fun _ _ => eq_refl)) as G.
      rewrite Forall_forall in IH, N2.
      assert (ONE : forall k e, dget k m = Some e -> exists r,
        comb (dget k p) (dget k c) = Some r /\ forall q, look_o q r = got q (Some e) (dget k c)).
      { intros k e I. pose proof (dget_in _ _ _ I) as J.
        pose proof (prep_loop_ok _ _ _ _ L _ _ J) as OK. specialize (G k). rewrite I in G.
        rewrite G. destruct (prep_entry e (dget k c)) as [ok pe'] eqn:E. cbn in OK. subst ok.
        apply (IH (k, e) J (N2 _ J) _ _ E). }
      destruct (merge_total p c NP) as [d MD].
      { intros k pe' I. apply (in_dget _ _ _ NP) in I. pose proof (G k) as Gk. rewrite I in Gk.
        destruct (dget k m) as [e|] eqn:M; [|discriminate].
        destruct (ONE k e M) as (r & R & _). rewrite I in R. exists r. exact R. }
      exists d. split; [exact MD|]. intros k q.
      pose proof (merge_get _ _ _ MD NP k) as Mk.
      destruct (dget k m) as [e|] eqn:M.
      - destruct (ONE k e M) as (r & R & Lk). rewrite <- Lk.
        destruct (dget k p) as [pe'|] eqn:P; cbn [comb] in R.
        + rewrite R in Mk. injection Mk as <-. reflexivity.
        + injection R as <-. rewrite Mk. reflexivity.
      - specialize (G k). rewrite M in G. cbn in G. rewrite G in Mk. rewrite Mk. cbn [got].
        destruct q; reflexivity. }
    destruct cur as [[t|c]|].
    + discriminate.
    + destruct (prep_loop m c []) as [ok p] eqn:L. injection H as -> <-.
      destruct (KEY _ _ L) as (d & MD & V). cbn [comb]. rewrite merge_entry_map, MD.
      eexists; split; [reflexivity|]. intros [|k q]; [reflexivity|]. cbn [look_o look got sub].
      rewrite <- V. destruct (dget k d); reflexivity.
    + destruct (prep_loop m [] []) as [ok p] eqn:L. injection H as -> <-.
      destruct (KEY _ _ L) as (d & MD & V). cbn [comb]. rewrite merge_entry_map, MD.
      eexists; split; [reflexivity|]. intros [|k q]; reflexivity.
Qed.

(** ** Acceptance *)

Lemma look_sub k p e : look (k :: p) e = look_o p (sub k (Some e)).
Proof. destruct e; cbn; [reflexivity|]. destruct (dget k d); reflexivity. Qed.

Definition accept_e (cur : option dentry) (new : dentry) : Prop :=
  forall p l t, look p new = Some l -> look_o p cur = Some (LCell t) ->
    match l with
    | LCell c => cell_init c = true -> cell_class t = cell_class c
    | LMap => False
    end.

Lemma accept_prep e : entry_nd e -> forall cur,
  fst (prep_entry e cur) = true <-> accept_e cur e.
Proof.
  induction e as [n|m IH] using dentry_ind'; intros ND cur.
  - split.
    + intros H [|k p] l t L C; [|discriminate]. injection L as <-. intros I.
      destruct cur as [[t'|c]|]; [|discriminate..]. injection C as ->. cbn [prep_entry] in H.
      rewrite I in H. destruct (tclass_eqb (cell_class t) (cell_class n)) eqn:E; [|discriminate].
      apply tclass_eqb_eq. exact E.
    + intros H. destruct cur as [[t|c]|]; cbn [prep_entry].
      * destruct (cell_init n) eqn:I; [|reflexivity].
        rewrite (proj2 (tclass_eqb_eq _ _)); [reflexivity|].
        apply (H [] (LCell n) t); auto.
      * reflexivity.
      * destruct (cell_init n); reflexivity.
  - inversion ND as [|? N1 N2]; subst. rewrite Forall_forall in IH, N2. rewrite prep_entry_map.
    assert (KEY : forall cur', (match cur' with Some (DData _) => False | _ => True end) ->
      (forall c, match cur' with Some (DMap c') => c = c' | _ => c = [] end ->
      (fst (prep_loop m c []) = true <-> accept_e cur' (DMap m)))).
    { intros cur' NC c HC. split.
      - intros H. destruct (prep_loop m c []) as [ok p] eqn:L. cbn in H. subst ok.
        intros [|k q] l t LK CK.
        + destruct cur' as [[?|?]|]; cbn in CK; [contradiction|discriminate..].
        + rewrite look_sub in LK. cbn [sub] in LK. destruct (dget k m) as [e|] eqn:M; [|discriminate].
          pose proof (dget_in _ _ _ M) as J.
          pose proof (prep_loop_ok _ _ _ _ L _ _ J) as OK.
          apply (proj1 (IH (k, e) J (N2 _ J) _) OK q l t LK).
          destruct cur' as [[?|c']|]; [contradiction| |discriminate].
          subst c. cbn in CK. destruct (dget k c'); exact CK.
      - intros H. destruct (prep_loop_all m c []) as [p' P]; [|rewrite P; reflexivity].
        intros k e J. apply (IH (k, e) J (N2 _ J)). intros q l t LK CK.
        apply (H (k :: q) l t).
        + cbn [look]. rewrite (in_dget _ _ _ N1 J). exact LK.
        + destruct cur' as [[?|c']|]; [contradiction| |subst c; discriminate].
          subst c. cbn. destruct (dget k c'); [exact CK|discriminate]. }
    destruct cur as [[t|c]|].
    + split; [discriminate|]. intros H. exfalso. apply (H [] LMap t); reflexivity.
    + rewrite <- (KEY (Some (DMap c)) I c eq_refl). destruct (prep_loop m c []); reflexivity.
    + rewrite <- (KEY None I [] eq_refl). destruct (prep_loop m [] []); reflexivity.
Qed.

(** ** Whole dictionaries *)

Lemma prepare_accepts cur new : dict_nd new ->
  (exists p, prepare_patch cur new = Some p) <-> acceptable cur new.
Proof.
  intros ND. pose proof (accept_prep (DMap new) ND (Some (DMap cur))) as A.
  rewrite prep_entry_map in A. unfold prepare_patch.
  destruct (prep_loop new cur []) as [ok p]. cbn [fst] in A. split.
  - intros [p' H]. destruct ok; [|discriminate]. apply A. reflexivity.
  - intros H. apply A in H. subst ok. eauto.
Qed.

Lemma prepare_merge cur new p : dict_nd new -> prepare_patch cur new = Some p ->
  exists d, merge cur p = Some d /\
    forall q, look q (DMap d) = got q (Some (DMap new)) (Some (DMap cur)).
Proof.
  intros ND H. unfold prepare_patch in H. destruct (prep_loop new cur []) as [ok p'] eqn:L.
  destruct ok; [|discriminate]. injection H as ->.
  assert (E : prep_entry (DMap new) (Some (DMap cur)) = (true, Some (DMap p))).
  { rewrite prep_entry_map, L. reflexivity. }
  destruct (prep_comb _ ND _ _ E) as (r & C & V). cbn [comb] in C. rewrite merge_entry_map in C.
  destruct (merge cur p) as [d|]; [|discriminate]. injection C as <-. exists d. split; auto.
Qed.

Lemma got_want q : forall new cur,
  (forall p l, look_o p new = Some l ->
    match l with
    | LMap => look_o p cur = Some LMap
    | LCell c => cell_init c = true -> look_o p cur <> Some LMap
    end) -> got q new cur = want q new cur.
Proof.
  induction q as [|k q IH]; intros new cur H; destruct new as [[c|m]|]; cbn [got want]; auto.
  - destruct cur as [[t|d]|]; auto. destruct (cell_init c) eqn:I; auto.
    exfalso. apply (H [] (LCell c) eq_refl I eq_refl).
  - pose proof (H [] LMap eq_refl) as X. cbn in X. destruct cur as [[?|?]|]; auto; discriminate.
  - destruct cur as [[t|d]|]; auto. destruct (cell_init c) eqn:I; auto.
  - pose proof (H [] LMap eq_refl) as X. cbn in X. destruct cur as [[t|d]|]; [discriminate| |discriminate].
    apply IH. intros p l L. specialize (H (k :: p) l). cbn [look_o] in H. rewrite !look_sub in H.
    apply H. exact L.
Qed.

(** ** Preparing a prepared patch changes nothing (used for the replay of the system log) *)

Lemma aput_new k v (p : dict) : dget k p = None -> aput bseq k v p = p ++ [(k, v)].
Proof.
  unfold dget. induction p as [|[k' v'] p IH]; intros H; [reflexivity|]. cbn in H |- *.
  destruct (bseq k k'); [discriminate|]. rewrite IH by auto. reflexivity.
Qed.

Lemma prep_fix_loop new c : NoDup (map fst new) ->
  (forall k e, In (k, e) new -> prep_entry e (dget k c) = (true, Some e)) ->
  forall p, (forall k, In k (map fst new) -> dget k p = None) -> prep_loop new c p = (true, p ++ new).
Proof.
  induction new as [|[k e] new IH]; intros ND H p D; [rewrite app_nil_r; reflexivity|].
  cbn [prep_loop]. rewrite (H k e (or_introl eq_refl)).
  cbn [map fst] in ND. inversion ND as [|? ? N1 N2]; subst.
  assert (DK : dget k p = None) by (apply D; left; reflexivity).
  rewrite aput_new by exact DK. rewrite IH; auto.
  - rewrite <- app_assoc. reflexivity.
  - intros; apply H; right; auto.
  - intros k' I. apply dget_none. rewrite map_app, in_app_iff. intros [X|[X|[]]].
    + apply (proj1 (dget_none k' p)); auto. apply D. right. auto.
    + cbn in X. subst k'. auto.
Qed.

Lemma prep_idem e : entry_nd e -> forall cur pe, prep_entry e cur = (true, Some pe) ->
  entry_nd pe /\ prep_entry pe cur = (true, Some pe).
Proof.
  induction e as [n|m IH] using dentry_ind'; intros ND cur pe H.
  - destruct n as [|b|q w|b|b|l]; destruct cur as [[t|c]|]; cbn [prep_entry cell_init] in H;
    repeat match type of H with (if ?x then _ else _) = _ => destruct x eqn:?; [|discriminate] end;
    try discriminate;
    injection H as <-; (split; [constructor|]); cbn [prep_entry cell_init];
    repeat match goal with E : tclass_eqb _ _ = true |- _ => rewrite E end; reflexivity.
  - inversion ND as [|? N1 N2]; subst. rewrite prep_entry_map in H.
    assert (KEY : forall c p, prep_loop m c [] = (true, p) ->
              entry_nd (DMap p) /\ prep_loop p c [] = (true, p)).
    { intros c p L. pose proof (prep_loop_nd _ _ _ _ _ L (NoDup_nil _)) as NP.
      pose proof (prep_loop_get _ _ _ _ L N1 (fun _ _ => eq_refl)) as G.
      rewrite Forall_forall in IH, N2.
      assert (ONE : forall k pe', In (k, pe') p -> entry_nd pe' /\ prep_entry pe' (dget k c) = (true, Some pe')).
      { intros k pe' I. apply (in_dget _ _ _ NP) in I. specialize (G k). rewrite I in G.
        destruct (dget k m) as [e|] eqn:M; [|discriminate]. pose proof (dget_in _ _ _ M) as J.
        pose proof (prep_loop_ok _ _ _ _ L _ _ J) as OK.
        apply (IH (k, e) J (N2 _ J) (dget k c) pe'). cbn [snd].
        destruct (prep_entry e (dget k c)) as [ok pe2]. cbn in OK, G. subst. reflexivity. }
      split.
      - constructor; auto. apply Forall_forall. intros [k pe'] I. apply (ONE _ _ I).
      - rewrite (prep_fix_loop p c NP); [reflexivity| |reflexivity]. intros k pe' I. apply (ONE _ _ I). }
    destruct cur as [[t|c]|]; [discriminate| |].
    + destruct (prep_loop m c []) as [ok p] eqn:L. injection H as -> <-.
      destruct (KEY _ _ L) as [A B]. split; auto. rewrite prep_entry_map, B. reflexivity.
    + destruct (prep_loop m [] []) as [ok p] eqn:L. injection H as -> <-.
      destruct (KEY _ _ L) as [A B]. split; auto. rewrite prep_entry_map, B. reflexivity.
Qed.

Lemma prepare_idem cur new p : dict_nd new -> prepare_patch cur new = Some p ->
  dict_nd p /\ prepare_patch cur p = Some p.
Proof.
  intros ND H. unfold prepare_patch in *. destruct (prep_loop new cur []) as [ok p'] eqn:L.
  destruct ok; [|discriminate]. injection H as ->.
  assert (E : prep_entry (DMap new) (Some (DMap cur)) = (true, Some (DMap p))).
  { rewrite prep_entry_map, L. reflexivity. }
  destruct (prep_idem _ ND _ _ E) as [A B]. split; [exact A|].
  rewrite prep_entry_map in B. destruct (prep_loop p cur []) as [ok p'']. injection B as -> ->. reflexivity.
Qed.

(** ** No duplicates are ever created *)

Lemma aput_forall (P : dentry -> Prop) k v (m : dict) :
  P v -> Forall (fun kv => P (snd kv)) m -> Forall (fun kv => P (snd kv)) (aput bseq k v m).
Proof.
  intros Pv H. induction H as [|[k' v'] m H1 H2 IH]; cbn; [constructor; auto|].
  destruct (bseq k k'); constructor; auto.
Qed.

Lemma adel_forall (P : dentry -> Prop) k (m : dict) :
  Forall (fun kv => P (snd kv)) m -> Forall (fun kv => P (snd kv)) (adel bseq k m).
Proof.
  intros H. apply Forall_forall. intros x I. apply filter_In in I as [I _].
  rewrite Forall_forall in H. auto.
Qed.

Lemma dict_nd_set k v d : dict_nd d -> (forall e, v = Some e -> entry_nd e) -> dict_nd (aset bseq k v d).
Proof.
  intros H V. inversion H as [|? N F]; subst. constructor.
  - apply (nodup_set bseq bseq_eq). exact N.
  - destruct v as [v|]; cbn [aset]; [apply (aput_forall entry_nd)|apply (adel_forall entry_nd)]; auto.
Qed.

Lemma merge_entry_nd pe : entry_nd pe -> forall cur r, (forall e, cur = Some e -> entry_nd e) ->
  merge_entry pe cur = Some (Some r) -> entry_nd r.
Proof.
  induction pe as [n|m IH] using dentry_ind'; intros ND cur r C H.
  - cbn in H. destruct (cell_init n); [|discriminate]. injection H as <-. constructor.
  - rewrite merge_entry_map in H. inversion ND as [|? _ N2]; subst. clear ND.
    assert (KEY : forall c d, dict_nd c -> merge c m = Some d -> dict_nd d).
    { clear H C cur r. induction m as [|[k e] m IHm]; intros c d NC H; [injection H as <-; auto|].
      cbn [merge] in H. destruct (merge_entry e (dget k c)) as [r|] eqn:E; [|discriminate].
      inversion IH; subst. inversion N2; subst. cbn [snd] in *.
      assert (R : dict_nd (aset bseq k r c)).
      { apply dict_nd_set; [exact NC|]. intros e' ->. apply (H2 H4 (dget k c)); [|exact E].
        intros e'' G. eapply dget_nd; eauto. }
      apply (IHm H3 H5 _ _ R H). }
    destruct cur as [[?|c]|]; [discriminate| |].
    + destruct (merge c m) eqn:M; [|discriminate]. injection H as <-. apply (KEY c); auto.
      apply (C (DMap c) eq_refl).
    + destruct (merge [] m); discriminate.
Qed.

Lemma merge_nd : forall p c d, dict_nd p -> dict_nd c -> merge c p = Some d -> dict_nd d.
Proof.
  intros p c d NP NC H. assert (E : merge_entry (DMap p) (Some (DMap c)) = Some (Some (DMap d))).
  { rewrite merge_entry_map, H. reflexivity. }
  apply (merge_entry_nd (DMap p) NP (Some (DMap c)) (DMap d)); [|exact E]. intros e [= <-]. exact NC.
Qed.

(** ** Flattening *)

Lemma flat_entry_map d : flat_entry (DMap d) = Some (DMap (flatten d)).
Proof.
  assert (X : forall d, (fix go (d : list (bytes * dentry)) : dict :=
        match d with
        | [] => []
        | (k, e) :: d' => match flat_entry e with Some e' => (k, e') :: go d' | None => go d' end
        end) d = flatten d).
  { clear. induction d as [|[k e] d IH]; [reflexivity|]. cbn [flatten].
    destruct (flat_entry e); rewrite <- IH; reflexivity. }
  cbn [flat_entry]. rewrite X. reflexivity.
Qed.

Lemma flatten_keys d : forall k, In k (map fst (flatten d)) -> In k (map fst d).
Proof.
  induction d as [|[k e] d IH]; intros k0; [auto|]. cbn [flatten map fst].
  destruct (flat_entry e); cbn; intuition.
Qed.

Lemma flatten_get d : NoDup (map fst d) -> forall k,
  dget k (flatten d) = match dget k d with Some e => flat_entry e | None => None end.
Proof.
  induction d as [|[k e] d IH]; intros ND k0; [reflexivity|]. cbn [map fst] in ND.
  inversion ND as [|? ? N1 N2]; subst. cbn [flatten]. rewrite dget_cons.
  destruct (bseq k0 k) eqn:B.
  - apply bseq_eq in B. subst. destruct (flat_entry e).
    + rewrite dget_cons, bseq_refl. reflexivity.
    + apply dget_none. intros X. apply flatten_keys in X. auto.
  - rewrite <- IH by auto. destruct (flat_entry e); [rewrite dget_cons, B|]; reflexivity.
Qed.

Lemma flat_entry_look e : entry_nd e -> forall p, look_o p (flat_entry e) =
  match look p e with
  | Some (LCell c) => if cell_init c then Some (LCell c) else None
  | x => x
  end.
Proof.
  induction e as [n|m IH] using dentry_ind'; intros ND p.
  - cbn [flat_entry]. destruct p; cbn [look].
    + destruct (cell_init n) eqn:I; cbn; reflexivity.
    + destruct (cell_init n); reflexivity.
  - rewrite flat_entry_map. destruct p as [|k p]; [reflexivity|]. inversion ND as [|? N1 N2]; subst.
    cbn [look_o look]. rewrite flatten_get by auto. destruct (dget k m) as [e|] eqn:M; [|reflexivity].
    apply dget_in in M. rewrite Forall_forall in IH, N2. pose proof (IH _ M (N2 _ M) p) as X.
    cbn [snd] in X. rewrite <- X. destruct (flat_entry e); reflexivity.
Qed.

Lemma flat_entry_nd e : entry_nd e -> forall e', flat_entry e = Some e' -> entry_nd e'.
Proof.
  induction e as [n|m IH] using dentry_ind'; intros ND e' H.
  - cbn in H. destruct (cell_init n); [|discriminate]. injection H as <-. constructor.
  - rewrite flat_entry_map in H. injection H as <-. inversion ND as [|? N1 N2]; subst. constructor.
    + clear IH N2 ND. induction m as [|[k e] m IHm]; [constructor|]. cbn [map fst] in N1.
      inversion N1; subst. cbn [flatten]. destruct (flat_entry e); auto. cbn [map fst].
      constructor; auto. intros X. apply flatten_keys in X. auto.
    + clear N1 ND. induction m as [|[k e] m IHm]; [constructor|]. inversion IH; subst.
      inversion N2; subst. cbn [flatten]. destruct (flat_entry e) eqn:E; auto.
Qed.

Lemma flatten_nd d : dict_nd d -> dict_nd (flatten d).
Proof. intros H. apply (flat_entry_nd (DMap d) H). apply flat_entry_map. Qed.

(** the stored dictionaries hold no nulls *)
Definition no_nulls (d : dict) : Prop := forall p c, look p (DMap d) = Some (LCell c) -> cell_init c = true.

Lemma flatten_no_nulls d : dict_nd d -> no_nulls (flatten d).
Proof.
  intros ND p c H. pose proof (flat_entry_look (DMap d) ND p) as E. rewrite flat_entry_map in E.
  cbn [look_o] in E. rewrite H in E. destruct (look p (DMap d)) as [[c'|]|]; try discriminate.
  destruct (cell_init c') eqn:I; [|discriminate]. injection E as <-. exact I.
Qed.

Lemma got_no_nulls q : forall new cur c, (forall p t, look_o p cur = Some (LCell t) -> cell_init t = true) ->
  got q new cur = Some (LCell c) -> cell_init c = true.
Proof.
  induction q as [|k q IH]; intros new cur c H G; destruct new as [[n|m]|]; cbn [got] in G; eauto.
  - destruct cur as [[?|?]|]; try discriminate; destruct (cell_init n) eqn:I; try discriminate;
    cbn in G; injection G as <-; auto.
  - destruct cur; discriminate.
  - destruct cur as [[?|?]|]; try discriminate; destruct (cell_init n); discriminate.
  - destruct cur as [cur|]; [|discriminate]. apply (IH (dget k m) (sub k (Some cur)) c); auto.
    intros p t L. apply (H (k :: p)). cbn [look_o]. rewrite look_sub. exact L.
Qed.
