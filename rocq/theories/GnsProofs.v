(** Proofs about the namespace model. *)
From Coq Require Import Strings.String List Arith NArith Bool Lia Permutation.
From Verif Require Import Bytes AMap DataModel CodecModel CodecProofs GnsCodecModel DictModel DictProofs
  TypeModel TypeProofs GnsModel.
Import ListNotations.
Local Open Scope N_scope.

(** * Helpers *)

Lemma ent_eqb_eq a b : ent_eqb a b = true <-> a = b.
Proof.
  destruct a as [a1 a2], b as [b1 b2]. unfold ent_eqb. cbn [fst snd].
  rewrite andb_true_iff, !bseq_eq. split; [intros [-> ->]; reflexivity|intros H; inversion H; auto].
Qed.

Ltac amap :=
  repeat first
  [ rewrite (aget_put_same bseq bseq_eq) | rewrite (aget_put_same ent_eqb ent_eqb_eq)
  | rewrite (aget_del_same bseq) | rewrite (aget_del_same ent_eqb) ].

Lemma set_has_in x l : set_has x l = true <-> In x l.
Proof.
  unfold set_has. rewrite existsb_exists. split.
  - intros (y & H & E). apply bseq_eq in E as <-. exact H.
  - intros H. exists x. split; [exact H|apply bseq_refl].
Qed.
Lemma set_has_false x l : set_has x l = false <-> ~ In x l.
Proof. rewrite <- set_has_in. destruct (set_has x l); split; congruence. Qed.
Lemma set_add_in x l y : In y (set_add x l) <-> y = x \/ In y l.
Proof.
  unfold set_add. destruct (set_has x l) eqn:E.
  - apply set_has_in in E. split; [auto|]. intros [->|H]; auto.
  - rewrite in_app_iff. cbn [In]. intuition.
Qed.
Lemma set_add_nodup x l : NoDup l -> NoDup (set_add x l).
Proof.
  intros H. unfold set_add. destruct (set_has x l) eqn:E; auto.
  apply set_has_false in E. apply NoDup_app_one; auto.
Qed.
Lemma set_del_in x l y : In y (set_del x l) <-> y <> x /\ In y l.
Proof.
  unfold set_del. rewrite filter_In. split.
  - intros [H E]. split; auto. intros ->. rewrite bseq_refl in E. discriminate.
  - intros [H1 H2]. split; auto. apply negb_true_iff. apply bseq_neq. congruence.
Qed.
Lemma set_del_nodup x l : NoDup l -> NoDup (set_del x l).
Proof. apply NoDup_filter. Qed.

(** * Field maps and the mutator *)

Definition f_keys (m : fieldmap) : list bytes := map fst m.

Lemma f_has_in k m : f_has k m = true <-> In k (f_keys m).
Proof.
  unfold f_has, f_get. destruct (aget bseq k m) as [v|] eqn:E.
  - split; auto. intros _. apply (aget_some_key bseq bseq_eq) in E. exact E.
  - split; [discriminate|]. intros H. apply (aget_none bseq bseq_eq) in E. elim E. exact H.
Qed.
Lemma f_has_false k m : f_has k m = false <-> ~ In k (f_keys m).
Proof. rewrite <- f_has_in. destruct (f_has k m); split; congruence. Qed.

Lemma live_replay_add fs : forall m,
  NoDup (f_keys fs) -> (forall k, In k (f_keys fs) -> ~ In k (f_keys (lo_fields (md_lay m)))) ->
  replay_add fs m = Some (live_add fs m).
Proof.
  induction fs as [|[k v] fs IH]; intros m ND HN; [reflexivity|].
  cbn [replay_add]. unfold live_add. cbn [fold_left fst snd]. fold (live_add fs).
  unfold mut_add. unfold f_insert.
  replace (f_has k (lo_fields (md_lay m))) with false
    by (symmetry; apply f_has_false; apply HN; left; reflexivity).
  cbn [fst]. rewrite IH; [reflexivity| |].
  - inversion ND; auto.
  - intros k' H'. cbn [set_fields bump md_lay lo_fields]. unfold f_keys. rewrite map_app, in_app_iff.
    cbn [map fst In]. intros [X|[X|[]]].
    + apply (HN k'); [right; exact H'|exact X].
    + subst k'. inversion ND; auto.
Qed.

Lemma f_keys_adel k m : forall x, In x (f_keys (adel bseq k m)) <-> x <> k /\ In x (f_keys m).
Proof. apply (akeys_del_in bseq bseq_eq). Qed.

Lemma live_replay_rem ks : forall m,
  NoDup ks -> (forall k, In k ks -> In k (f_keys (lo_fields (md_lay m)))) ->
  replay_rem ks m = Some (live_rem ks m).
Proof.
  induction ks as [|k ks IH]; intros m ND HN; [reflexivity|].
  cbn [replay_rem]. unfold live_rem. cbn [fold_left]. fold (live_rem ks).
  unfold mut_rem, f_delete.
  replace (f_has k (lo_fields (md_lay m))) with true
    by (symmetry; apply f_has_in; apply HN; left; reflexivity).
  cbn [fst]. rewrite IH; [reflexivity| |].
  - inversion ND; auto.
  - intros k' H'. cbn [set_fields bump md_lay lo_fields]. rewrite f_keys_adel.
    split; [|apply HN; right; exact H']. intros ->. inversion ND; auto.
Qed.

Lemma live_replay_upd fs : forall m,
  (forall k, In k (f_keys fs) -> In k (f_keys (lo_fields (md_lay m)))) ->
  replay_upd fs m = Some (live_upd fs m).
Proof.
  induction fs as [|[k v] fs IH]; intros m HN; [reflexivity|].
  cbn [replay_upd]. unfold live_upd. cbn [fold_left fst snd]. fold (live_upd fs).
  unfold mut_upd, f_update.
  replace (f_has k (lo_fields (md_lay m))) with true
    by (symmetry; apply f_has_in; apply HN; left; reflexivity).
  cbn [fst]. rewrite IH; [reflexivity|].
  intros k' H'. cbn [set_fields md_lay lo_fields]. unfold f_keys. rewrite map_app, in_app_iff.
  cbn [map fst In]. destruct (bseq k k') eqn:E.
  - apply bseq_eq in E. auto.
  - apply bseq_neq in E. left. apply f_keys_adel. split; [congruence|]. apply HN. right. exact H'.
Qed.

(** * What the ALTER plans guarantee *)

Lemma no_dups_ok l : no_dups l = true <-> NoDup l.
Proof.
  induction l as [|x l IH]; cbn [no_dups]; [split; [constructor|reflexivity]|].
  rewrite andb_true_iff, negb_true_iff, set_has_false, IH. split.
  - intros [H1 H2]. constructor; auto.
  - intros H. inversion H; auto.
Qed.

Lemma rem_check_ok pk fs ks : rem_check pk fs ks = None ->
  forall k, In k ks -> k <> pk /\ In k (f_keys fs).
Proof.
  induction ks as [|k ks IH]; cbn [rem_check]; intros H k' HK; [contradiction|].
  destruct (negb (bseq k pk) && f_has k fs) eqn:E; [|destruct (f_has k fs); discriminate].
  apply andb_true_iff in E as [E1 E2]. apply negb_true_iff, bseq_neq in E1. apply f_has_in in E2.
  destruct HK as [<-|HK]; auto.
Qed.

Lemma f_insert_fresh k v m m' : f_insert k v m = (m', true) -> m' = m ++ [(k, v)] /\ ~ In k (f_keys m).
Proof.
  unfold f_insert. destruct (f_has k m) eqn:E; intros H; inversion H; subst.
  split; [reflexivity|]. apply f_has_false. exact E.
Qed.

Lemma add_plan_ok pk fs l : forall add new, add_plan pk fs l add = Some (inr new) ->
  NoDup (f_keys add) -> (forall k, In k (f_keys add) -> k <> pk /\ ~ In k (f_keys fs)) ->
  Forall (fun kv => layers_ok (f_layers (snd kv))) add ->
  NoDup (f_keys new) /\ (forall k, In k (f_keys new) -> k <> pk /\ ~ In k (f_keys fs)) /\
  Forall (fun kv => layers_ok (f_layers (snd kv))) new.
Proof.
  induction l as [|x l IH]; intros add new H ND HN HL; cbn [add_plan] in H.
  { inversion H; subst; auto. }
  destruct (check_nullable (ef_props x)) as [[e|[nullable rest]]|]; try discriminate.
  destruct (parse_layers (ef_layers x) nullable) as [f|] eqn:EP; [|discriminate].
  destruct (f_insert (ef_name x) f add) as [add' fresh] eqn:EI.
  destruct (negb (f_has (ef_name x) fs) && negb (bseq (ef_name x) pk) && fresh) eqn:E; [|discriminate].
  apply andb_true_iff in E as [E ->]. apply andb_true_iff in E as [E1 E2].
  apply negb_true_iff, f_has_false in E1. apply negb_true_iff, bseq_neq in E2.
  apply f_insert_fresh in EI as [-> EF]. apply parse_layers_exact in EP as (_ & EL & _).
  apply IH in H; auto.
  - unfold f_keys. rewrite map_app. cbn [map fst]. apply NoDup_app_one; auto.
  - intros k. unfold f_keys. rewrite map_app, in_app_iff. cbn [map fst In].
    intros [HK|[<-|[]]]; auto.
  - apply Forall_app. split; auto.
Qed.

Lemma ldeltas_go_shape ls : forall cur nl d nl' d' ok ts,
  ldeltas_go ls cur nl d = inr (nl', d', ok, ts) -> layers_ok cur -> layers_ok ts.
Proof.
  induction ls as [|l ls IH]; intros cur nl d nl' d' ok ts H HC; cbn [ldeltas_go] in H.
  { inversion H; subst; auto. }
  destruct cur as [|c cur]; [inversion H; subst; auto|].
  destruct (get_layer (ls_ty l)) as [t|]; [|discriminate].
  destruct (tsel_eqb c t || interop c t) eqn:E; [|discriminate].
  assert (HT : forall r, layers_ok (c :: r) -> layers_ok (t :: r)).
  { intros r HR. apply orb_true_iff in E as [E|E].
    - apply tsel_eqb_eq in E as ->. exact HR.
    - inversion HR; subst.
      + constructor. intros ->. destruct c; discriminate E.
      + destruct t; discriminate E. }
  destruct (match ls_props l with [] => true | _ => false end).
  - destruct (ldeltas_go ls cur _ _) as [e|[[[nl2 d2] ok2] ts2]] eqn:EG; [discriminate|].
    inversion H; subst. apply HT.
    inversion HC; subst.
    + assert (ts2 = []). { destruct ls; cbn [ldeltas_go] in EG; inversion EG; reflexivity. }
      subst ts2. constructor. auto.
    + constructor. eapply IH; eauto.
  - inversion H; subst. apply HT. exact HC.
Qed.

Lemma ldeltas_ok cur ls n nl d f : ldeltas cur ls n = inr (nl, d, f) -> layers_ok (f_layers cur) ->
  layers_ok (f_layers f) /\ f_null f = n.
Proof.
  unfold ldeltas. destruct (Nat.ltb _ _); [discriminate|].
  destruct (ldeltas_go _ _ _ _) as [e|[[[nl2 d2] ok] ts]] eqn:E; [discriminate|].
  destruct ok; [|discriminate]. intros H HL. inversion H; subst. split; [|reflexivity].
  cbn [f_layers]. eapply ldeltas_go_shape; eauto.
Qed.

Lemma upd_plan_ok pk fs l : forall nl d new nl' d' new',
  Forall (fun kv => layers_ok (f_layers (snd kv))) fs ->
  upd_plan pk fs l nl d new = Some (inr (nl', d', new')) ->
  NoDup (f_keys new) -> (forall k, In k (f_keys new) -> k <> pk /\ In k (f_keys fs)) ->
  Forall (fun kv => layers_ok (f_layers (snd kv))) new ->
  NoDup (f_keys new') /\ (forall k, In k (f_keys new') -> k <> pk /\ In k (f_keys fs)) /\
  Forall (fun kv => layers_ok (f_layers (snd kv))) new'.
Proof.
  induction l as [|x l IH]; intros nl d new nl' d' new' HFS H ND HN HL; cbn [upd_plan] in H.
  { inversion H; subst; auto. }
  destruct (bseq (ef_name x) pk) eqn:EB; [discriminate|]. apply bseq_neq in EB.
  destruct (f_get (ef_name x) fs) as [cur|] eqn:EC; [|discriminate].
  destruct (check_nullable (ef_props x)) as [[e|[nullable rest]]|]; try discriminate.
  destruct (ldeltas cur (ef_layers x) nullable) as [e|[[nl2 d2] f]] eqn:EL; [discriminate|].
  destruct (f_insert (ef_name x) f new) as [new1 fresh] eqn:EI.
  destruct (_ && fresh) eqn:E; [|discriminate].
  apply andb_true_iff in E as [_ ->]. apply f_insert_fresh in EI as [-> EF].
  unfold f_get in EC. pose proof EC as EC'.
  apply (aget_some_key bseq bseq_eq) in EC. apply (aget_in bseq bseq_eq) in EC'.
  rewrite Forall_forall in HFS. specialize (HFS _ EC') as HCL. cbn [snd] in HCL.
  rewrite <- Forall_forall in HFS.
  apply ldeltas_ok in EL as [EL _]; auto.
  apply IH in H; auto.
  - unfold f_keys. rewrite map_app. cbn [map fst]. apply NoDup_app_one; auto.
  - intros k. unfold f_keys. rewrite map_app, in_app_iff. cbn [map fst In].
    intros [HK|[<-|[]]]; auto.
  - apply Forall_app. split; auto.
Qed.

(** * Space properties *)

(** properties of a space: nothing, or an [env] dictionary *)
Definition shape (p : dict) : Prop :=
  p = [] \/ exists d, p = [(KEY_ENV, DMap d)] /\ dict_nd p.
(** what a logged properties patch looks like *)
Definition patch_shape (p : dict) : Prop :=
  dict_nd p /\ (p = [] \/ p = [(KEY_ENV, DData CNull)] \/ exists m, p = [(KEY_ENV, DMap m)]).
(** replayed properties against live ones: the same, or gone *)
Definition prel (live replayed : dict) : Prop := live = replayed \/ replayed = [].

Lemma prel_trans a b c : prel a b -> prel b c -> prel a c.
Proof. unfold prel. intros [H1|H1] [H2|H2]; subst; auto. Qed.

Lemma dget_env_1 e r : dget KEY_ENV ((KEY_ENV, e) :: r) = Some e.
Proof. unfold dget. cbn [aget]. rewrite bseq_refl. reflexivity. Qed.

Lemma one_env props e : dget KEY_ENV props = Some e -> length props = 1%nat -> props = [(KEY_ENV, e)].
Proof.
  destruct props as [|[k v] [|? ?]]; cbn [length]; intros H L; try discriminate.
  unfold dget in H. cbn [aget] in H. destruct (bseq KEY_ENV k) eqn:E; [|discriminate].
  apply bseq_eq in E as <-. inversion H; subst. reflexivity.
Qed.

Lemma create_props_shape props p : dict_nd props -> create_space_props props = Some p ->
  exists d, p = [(KEY_ENV, DMap d)] /\ dict_nd p.
Proof.
  unfold create_space_props. intros ND H.
  destruct (dget KEY_ENV props) as [e|] eqn:E.
  - destruct (Nat.eqb (length props) 1) eqn:EL; [|discriminate]. apply Nat.eqb_eq in EL.
    apply one_env in E; auto. subst props.
    destruct e as [c|m].
    + destruct (cell_init c); [discriminate|]. injection H as <-.
      exists []. split; [reflexivity|].
      change (dict_nd [(KEY_ENV, DMap [])]). repeat constructor; auto.
    + injection H as <-. pose proof (flatten_nd _ ND) as NF.
      cbn [flatten] in *. rewrite flat_entry_map in *. eauto.
  - destruct props; [|discriminate]. injection H as <-.
    exists []. split; [reflexivity|]. change (dict_nd [(KEY_ENV, DMap [])]). repeat constructor; auto.
Qed.

(** the patch and result of an ALTER SPACE that is accepted *)
Lemma alter_patch_shape cur e p : shape cur -> dict_nd [(KEY_ENV, e)] ->
  (e = DData CNull \/ exists m, e = DMap m) ->
  prepare_patch cur [(KEY_ENV, e)] = Some p ->
  patch_shape p /\
  exists d, merge cur p = Some d /\ merge_metadata cur p = Some (Some d) /\ shape d /\
    ((exists m, e = DMap m) -> cur <> [] -> d <> []) /\ (e = DData CNull -> d = []).
Proof.
  intros HS ND HE HP.
  destruct (prepare_idem _ _ _ ND HP) as [NP HI].
  destruct (prepare_merge _ _ _ ND HP) as (d & HM & _).
  assert (NC : dict_nd cur) by (destruct HS as [->|(c & -> & N)]; [repeat constructor|auto]).
  pose proof (merge_nd _ _ _ NP NC HM) as NDd.
  assert (X : patch_shape p /\ shape d /\ ((exists m, e = DMap m) -> cur <> [] -> d <> []) /\ (e = DData CNull -> d = [])).
  { unfold prepare_patch in HP. cbn [prep_loop] in HP.
    destruct HS as [->|(c & -> & N)].
    - cbn [dget aget] in HP. destruct HE as [->|(m & ->)].
      + cbn in HP. injection HP as <-. cbn in HM. injection HM as <-.
        split; [split; [exact NP|auto]|]. split; [left; reflexivity|]. split; [|auto]. congruence.
      + unfold dget in HP. cbn [aget] in HP. rewrite prep_entry_map in HP.
        destruct (prep_loop m [] []) as [[|] q]; cbn [aput] in HP; [|discriminate].
        injection HP as <-. split; [split; [exact NP|eauto]|].
        cbn [merge] in HM. unfold dget in HM. cbn [aget] in HM. rewrite merge_entry_map in HM.
        destruct (merge [] q); [|discriminate]. cbn in HM. injection HM as <-.
        split; [left; reflexivity|]. split; [congruence|discriminate].
    - rewrite dget_env_1 in HP. destruct HE as [->|(m & ->)].
      + cbn [prep_entry cell_init aput] in HP. injection HP as <-.
        cbn [merge] in HM. rewrite dget_env_1 in HM. cbn [merge_entry cell_init aset adel filter fst] in HM.
        rewrite bseq_refl in HM. cbn [negb] in HM. injection HM as <-.
        split; [split; [exact NP|auto]|]. split; [left; reflexivity|]. split; [|auto].
        intros [m HX]; discriminate.
      + rewrite prep_entry_map in HP. destruct (prep_loop m c []) as [[|] q]; cbn [aput] in HP; [|discriminate].
        injection HP as <-. split; [split; [exact NP|eauto]|].
        cbn [merge] in HM. rewrite dget_env_1, merge_entry_map in HM.
        destruct (merge c q) as [c'|]; [|discriminate]. cbn [aset aput] in HM. rewrite bseq_refl in HM.
        injection HM as <-. split; [right; eauto|]. split; [congruence|discriminate]. }
  destruct X as (X1 & X2 & X3 & X4). split; [exact X1|].
  exists d. split; [exact HM|]. split; [|auto].
  unfold merge_metadata. rewrite HI, HM. reflexivity.
Qed.

(** a patch replayed onto properties that have lost [env] *)
Lemma merge_lost p : patch_shape p -> merge_metadata [] p = Some (Some []).
Proof.
  intros [ND HP].
  assert (HA : exists q, prepare_patch [] p = Some q).
  { apply prepare_accepts; auto. intros path l t _ H. destruct path; discriminate. }
  destruct HA as [q HQ]. destruct (prepare_merge _ _ _ ND HQ) as (d & HM & _).
  unfold merge_metadata. rewrite HQ, HM. do 2 f_equal.
  unfold prepare_patch in HQ. destruct HP as [->|[->|(m & ->)]].
  - cbn in HQ. injection HQ as <-. cbn in HM. congruence.
  - cbn in HQ. injection HQ as <-. cbn in HM. congruence.
  - cbn [prep_loop] in HQ. unfold dget in HQ. cbn [aget] in HQ. rewrite prep_entry_map in HQ.
    destruct (prep_loop m [] []) as [[|] r]; cbn [aput] in HQ; [|discriminate].
    injection HQ as <-. cbn [merge] in HM. unfold dget in HM. cbn [aget] in HM. rewrite merge_entry_map in HM.
    destruct (merge [] r); [|discriminate]. cbn in HM. congruence.
Qed.

(** * Invariants *)

(** a model definition as the server builds them *)
Definition lay_ok (l : layout) : Prop :=
  NoDup (f_keys (lo_fields l)) /\
  Forall (fun kv => layers_ok (f_layers (snd kv))) (lo_fields l) /\
  exists f, f_get (lo_pk l) (lo_fields l) = Some f /\ f_layers f = [lo_ptag l] /\
    tuniq_is_unique (tsel_uniq (lo_ptag l)) = true.

(** holds in every reachable state *)
Record ns_wf (n : ns) : Prop := {
  wf_sp : NoDup (akeys (n_spaces n));
  wf_md : NoDup (akeys (n_models n));
  wf_us : NoDup (akeys (n_users n));
  wf_space : forall k s, aget bseq k (n_spaces n) = Some s -> NoDup (sp_models s) /\ shape (sp_props s);
  wf_model : forall id m, aget ent_eqb id (n_models n) = Some m -> lay_ok (md_lay m)
}.
(** spaces list exactly the models that exist *)
Definition ns_link (n : ns) : Prop := forall sp m,
  (exists x, aget ent_eqb (sp, m) (n_models n) = Some x) <->
  (exists s, aget bseq sp (n_spaces n) = Some s /\ In m (sp_models s)).

Lemma ns_wf_empty : ns_wf ns_empty.
Proof. constructor; try constructor; intros; discriminate. Qed.
Lemma ns_link_empty : ns_link ns_empty.
Proof. intros sp m. split; intros [x H]; [discriminate|destruct H; discriminate]. Qed.

Lemma create_fields_ok l : forall fs pk cnt fs' pk' cnt',
  create_fields l fs pk cnt = inr (fs', pk', cnt') ->
  NoDup (f_keys fs) -> Forall (fun kv => layers_ok (f_layers (snd kv))) fs ->
  (forall k, pk = Some k -> In k (f_keys fs)) ->
  NoDup (f_keys fs') /\ Forall (fun kv => layers_ok (f_layers (snd kv))) fs' /\
  (forall k, pk' = Some k -> In k (f_keys fs')).
Proof.
  induction l as [|x l IH]; intros fs pk cnt fs' pk' cnt' H ND HL HK; cbn [create_fields] in H.
  { inversion H; subst; auto. }
  destruct (if fs_primary x then _ else _) as [[pk1 cnt1] ok1] eqn:EP.
  destruct (parse_layers (fs_layers x) (fs_null x)) as [f|] eqn:EL; [|discriminate].
  destruct (f_insert (fs_name x) f fs) as [fs1 ok2] eqn:EI.
  destruct (ok1 && ok2) eqn:EO; [|discriminate]. apply andb_true_iff in EO as [-> ->].
  apply f_insert_fresh in EI as [-> EF]. apply parse_layers_exact in EL as (_ & EL & _).
  apply IH in H; auto.
  - unfold f_keys. rewrite map_app. cbn [map fst]. apply NoDup_app_one; auto.
  - apply Forall_app; auto.
  - intros k Hk. unfold f_keys. rewrite map_app, in_app_iff. cbn [map fst In].
    destruct (fs_primary x); inversion EP as [[E1 E2]].
    + right; left. congruence.
    + left; apply HK; congruence.
Qed.

Lemma process_create_ok u fields props lay : process_create_model u fields props = inr lay -> lay_ok lay.
Proof.
  unfold process_create_model. destruct props; [|discriminate]. destruct fields as [|f0 fields]; [discriminate|].
  destruct (create_fields (f0 :: fields) [] None 0) as [[|]|[[fs pk] cnt]] eqn:E; try discriminate.
  destruct (cnt <=? 1); [|discriminate].
  intros H. apply create_fields_ok in E; [|constructor|constructor|intros; discriminate].
  destruct E as (ND & HL & HK).
  destruct (match pk with Some k => Some k | None => match fs with [] => None | (k, _) :: _ => Some k end end)
    as [k|]; [|discriminate].
  destruct (f_get k fs) as [[fn [|t ts]]|] eqn:EG; try discriminate.
  destruct (tuniq_is_unique (tsel_uniq t)) eqn:EU; [|discriminate].
  inversion H; subst lay. unfold lay_ok. cbn [lo_fields lo_pk lo_ptag].
  split; auto. split; auto. exists (mk_field fn (t :: ts)). split; [exact EG|]. split; [|exact EU].
  cbn [f_layers]. unfold f_get in EG. apply (aget_in bseq bseq_eq) in EG.
  rewrite Forall_forall in HL. specialize (HL _ EG). cbn [snd f_layers] in HL.
  inversion HL; subst; [reflexivity|]. discriminate EU.
Qed.

Lemma f_get_app k k' v m : f_get k (m ++ [(k', v)]) =
  match f_get k m with Some x => Some x | None => if bseq k k' then Some v else None end.
Proof.
  unfold f_get. induction m as [|[a b] m IH]; cbn [app aget]; [reflexivity|].
  destruct (bseq k a); auto.
Qed.
Lemma f_get_del k k' m : k <> k' -> f_get k (adel bseq k' m) = f_get k m.
Proof. apply (aget_del_other bseq bseq_eq). Qed.

Lemma forall_adel {V} (P : bytes * V -> Prop) k m : Forall P m -> Forall P (adel bseq k m).
Proof.
  unfold adel. rewrite !Forall_forall. intros H x Hx. apply filter_In in Hx as [Hx _]. auto.
Qed.

Lemma set_fields_lay_ok fs m : lay_ok (md_lay m) ->
  NoDup (f_keys fs) -> Forall (fun kv => layers_ok (f_layers (snd kv))) fs ->
  f_get (lo_pk (md_lay m)) fs = f_get (lo_pk (md_lay m)) (lo_fields (md_lay m)) ->
  lay_ok (md_lay (set_fields fs m)).
Proof.
  intros (_ & _ & f & G & L & U) ND HL HG. unfold lay_ok, set_fields. cbn [md_lay lo_fields lo_pk lo_ptag].
  split; auto. split; auto. exists f. rewrite HG. auto.
Qed.

Lemma live_add_ok fs : forall m, lay_ok (md_lay m) ->
  Forall (fun kv => layers_ok (f_layers (snd kv))) fs -> lay_ok (md_lay (live_add fs m)).
Proof.
  induction fs as [|[k v] fs IH]; intros m HM HL; [exact HM|].
  unfold live_add. cbn [fold_left fst snd]. apply IH; [|inversion HL; auto].
  unfold mut_add, f_insert. destruct (f_has k (lo_fields (md_lay m))) eqn:E; cbn [fst bump md_lay].
  - apply (set_fields_lay_ok _ _ HM); [apply HM|apply HM|reflexivity].
  - apply f_has_false in E. apply (set_fields_lay_ok _ _ HM).
    + unfold f_keys. rewrite map_app. cbn [map fst]. apply NoDup_app_one; [apply HM|exact E].
    + apply Forall_app. split; [apply HM|]. constructor; [|constructor]. inversion HL; auto.
    + rewrite f_get_app. destruct HM as (_ & _ & f & -> & _). reflexivity.
Qed.

Lemma live_rem_ok ks : forall m, lay_ok (md_lay m) ->
  (forall k, In k ks -> k <> lo_pk (md_lay m)) -> lay_ok (md_lay (live_rem ks m)).
Proof.
  induction ks as [|k ks IH]; intros m HM HK; [exact HM|].
  unfold live_rem. cbn [fold_left]. unfold mut_rem, f_delete.
  assert (NK : lo_pk (md_lay m) <> k) by (intros E; apply (HK k); [left|]; auto).
  destruct (f_has k (lo_fields (md_lay m))) eqn:E; cbn [fst].
  - apply IH.
    + cbn [bump md_lay]. apply (set_fields_lay_ok _ _ HM).
      * apply (nodup_del bseq bseq_eq). apply HM.
      * apply forall_adel. apply HM.
      * apply f_get_del. exact NK.
    + cbn. intros k' H'. apply HK. right. exact H'.
  - apply IH.
    + cbn [bump md_lay]. apply (set_fields_lay_ok _ _ HM); [apply HM|apply HM|reflexivity].
    + cbn. intros k' H'. apply HK. right. exact H'.
Qed.

Lemma live_upd_ok fs : forall m, lay_ok (md_lay m) ->
  (forall k, In k (f_keys fs) -> k <> lo_pk (md_lay m)) ->
  Forall (fun kv => layers_ok (f_layers (snd kv))) fs -> lay_ok (md_lay (live_upd fs m)).
Proof.
  induction fs as [|[k v] fs IH]; intros m HM HK HL; [exact HM|].
  unfold live_upd. cbn [fold_left fst snd]. unfold mut_upd, f_update.
  assert (NK : lo_pk (md_lay m) <> k) by (intros E; apply (HK k); [left|]; auto).
  destruct (f_has k (lo_fields (md_lay m))) eqn:E; cbn [fst].
  - apply IH; [|intros k' H'; apply HK; right; exact H'|inversion HL; auto].
    apply (set_fields_lay_ok _ _ HM).
    + unfold f_keys. rewrite map_app. cbn [map fst]. apply NoDup_app_one.
      * apply (nodup_del bseq bseq_eq). apply HM.
      * intros X. apply f_keys_adel in X. tauto.
    + apply Forall_app. split; [apply forall_adel; apply HM|]. constructor; [|constructor]. inversion HL; auto.
    + rewrite f_get_app, f_get_del by exact NK. destruct HM as (_ & _ & f & -> & _). reflexivity.
  - apply IH; [|intros k' H'; apply HK; right; exact H'|inversion HL; auto].
    apply (set_fields_lay_ok _ _ HM); [apply HM|apply HM|reflexivity].
Qed.

(** ** Preservation by the elementary updates *)

Lemma wf_put_space n k s : ns_wf n -> NoDup (sp_models s) -> shape (sp_props s) ->
  ns_wf (set_spaces (aput bseq k s (n_spaces n)) n).
Proof.
  intros W H1 H2. constructor; cbn [set_spaces n_spaces n_models n_users]; try apply W.
  - apply (nodup_put bseq bseq_eq). apply W.
  - intros k' s' H. destruct (bseq k' k) eqn:E.
    + apply bseq_eq in E as ->. rewrite (aget_put_same bseq bseq_eq) in H. inversion H; subst; auto.
    + apply bseq_neq in E. rewrite (aget_put_other bseq bseq_eq) in H by exact E. eapply wf_space; eauto.
Qed.
Lemma wf_del_space n k : ns_wf n -> ns_wf (set_spaces (adel bseq k (n_spaces n)) n).
Proof.
  intros W. constructor; cbn [set_spaces n_spaces n_models n_users]; try apply W.
  - apply (nodup_del bseq bseq_eq). apply W.
  - intros k' s' H. destruct (bseq k' k) eqn:E.
    + apply bseq_eq in E as ->. rewrite (aget_del_same bseq) in H. discriminate.
    + apply bseq_neq in E. rewrite (aget_del_other bseq bseq_eq) in H by exact E. eapply wf_space; eauto.
Qed.
Lemma wf_put_model n k m : ns_wf n -> lay_ok (md_lay m) ->
  ns_wf (set_models (aput ent_eqb k m (n_models n)) n).
Proof.
  intros W H1. constructor; cbn [set_models n_spaces n_models n_users]; try apply W.
  - apply (nodup_put ent_eqb ent_eqb_eq). apply W.
  - intros k' m' H. destruct (ent_eqb k' k) eqn:E.
    + apply ent_eqb_eq in E as ->. rewrite (aget_put_same ent_eqb ent_eqb_eq) in H. inversion H; subst; auto.
    + assert (KK : k' <> k) by (intros X; apply ent_eqb_eq in X; congruence).
      rewrite (aget_put_other ent_eqb ent_eqb_eq) in H by auto. eapply wf_model; eauto.
Qed.
Lemma wf_del_model n k : ns_wf n -> ns_wf (set_models (adel ent_eqb k (n_models n)) n).
Proof.
  intros W. constructor; cbn [set_models n_spaces n_models n_users]; try apply W.
  - apply (nodup_del ent_eqb ent_eqb_eq). apply W.
  - intros k' m' H. destruct (ent_eqb k' k) eqn:E.
    + apply ent_eqb_eq in E as ->. rewrite (aget_del_same ent_eqb) in H. discriminate.
    + assert (KK : k' <> k) by (intros X; apply ent_eqb_eq in X; congruence).
      rewrite (aget_del_other ent_eqb ent_eqb_eq) in H by auto. eapply wf_model; eauto.
Qed.
Lemma wf_users n u : ns_wf n -> NoDup (akeys u) -> ns_wf (set_users u n).
Proof. intros W H. constructor; cbn [set_users n_spaces n_models n_users]; try apply W; auto. Qed.

Lemma link_users n u : ns_link n -> ns_link (set_users u n).
Proof. intros L sp m. exact (L sp m). Qed.

Lemma link_put_space n k s s0 : ns_link n -> aget bseq k (n_spaces n) = Some s0 ->
  sp_models s = sp_models s0 -> ns_link (set_spaces (aput bseq k s (n_spaces n)) n).
Proof.
  intros L E EM sp m. cbn [set_spaces n_spaces n_models]. rewrite (L sp m).
  destruct (bseq sp k) eqn:EB.
  - apply bseq_eq in EB as ->. rewrite (aget_put_same bseq bseq_eq), E. split; intros (x & H & I).
    + exists s. inversion H; subst. rewrite EM. auto.
    + exists s0. inversion H; subst. rewrite <- EM. auto.
  - apply bseq_neq in EB. rewrite (aget_put_other bseq bseq_eq) by exact EB. reflexivity.
Qed.

Lemma link_new_space n k s : ns_link n -> aget bseq k (n_spaces n) = None -> sp_models s = [] ->
  ns_link (set_spaces (aput bseq k s (n_spaces n)) n).
Proof.
  intros L E EM sp m. cbn [set_spaces n_spaces n_models]. rewrite (L sp m).
  destruct (bseq sp k) eqn:EB.
  - apply bseq_eq in EB as ->. rewrite (aget_put_same bseq bseq_eq), E. split; intros (x & H & I).
    + discriminate.
    + inversion H; subst. rewrite EM in I. contradiction.
  - apply bseq_neq in EB. rewrite (aget_put_other bseq bseq_eq) by exact EB. reflexivity.
Qed.

Lemma link_put_model n id m m0 : ns_link n -> aget ent_eqb id (n_models n) = Some m0 ->
  ns_link (set_models (aput ent_eqb id m (n_models n)) n).
Proof.
  intros L E sp x. cbn [set_models n_spaces n_models]. rewrite <- (L sp x).
  destruct (ent_eqb (sp, x) id) eqn:EB.
  - apply ent_eqb_eq in EB as <-. rewrite (aget_put_same ent_eqb ent_eqb_eq), E.
    split; intros [y H]; eauto.
  - assert (KK : (sp, x) <> id) by (intros X; apply ent_eqb_eq in X; congruence).
    rewrite (aget_put_other ent_eqb ent_eqb_eq) by auto. reflexivity.
Qed.

Lemma link_create_model n id s m : ns_link n -> aget bseq (fst id) (n_spaces n) = Some s ->
  ns_link (set_spaces (aput bseq (fst id) (mk_mspace (sp_uuid s) (set_add (snd id) (sp_models s)) (sp_props s)) (n_spaces n))
            (set_models (aput ent_eqb id m (n_models n)) n)).
Proof.
  intros L E sp x. cbn [set_models set_spaces n_spaces n_models]. destruct id as [a b]. cbn [fst snd] in *.
  destruct (ent_eqb (sp, x) (a, b)) eqn:EB.
  - apply ent_eqb_eq in EB. injection EB as -> ->. rewrite (aget_put_same ent_eqb ent_eqb_eq), (aget_put_same bseq bseq_eq).
    split; [|eauto]. intros _. eexists. split; [reflexivity|]. cbn [sp_models]. apply set_add_in. auto.
  - assert (NE : (sp, x) <> (a, b)) by (intros X; apply ent_eqb_eq in X; congruence).
    rewrite (aget_put_other ent_eqb ent_eqb_eq) by auto. rewrite (L sp x).
    destruct (bseq sp a) eqn:ES.
    + apply bseq_eq in ES as ->. rewrite (aget_put_same bseq bseq_eq), E.
      assert (XB : x <> b) by congruence. split; intros (y & H & I).
      * eexists. split; [reflexivity|]. cbn [sp_models]. apply set_add_in. inversion H; subst; auto.
      * inversion H; subst. cbn [sp_models] in I. apply set_add_in in I as [I|I]; [contradiction|]. eauto.
    + apply bseq_neq in ES. rewrite (aget_put_other bseq bseq_eq) by exact ES. reflexivity.
Qed.

Lemma link_drop_model n id s : ns_link n -> aget bseq (fst id) (n_spaces n) = Some s ->
  ns_link (set_spaces (aput bseq (fst id) (mk_mspace (sp_uuid s) (set_del (snd id) (sp_models s)) (sp_props s)) (n_spaces n))
            (set_models (adel ent_eqb id (n_models n)) n)).
Proof.
  intros L E sp x. cbn [set_models set_spaces n_spaces n_models]. destruct id as [a b]. cbn [fst snd] in *.
  destruct (ent_eqb (sp, x) (a, b)) eqn:EB.
  - apply ent_eqb_eq in EB. injection EB as -> ->. rewrite (aget_del_same ent_eqb), (aget_put_same bseq bseq_eq).
    split; [intros [y H]; discriminate|]. intros (y & H & I). inversion H; subst. cbn [sp_models] in I.
    apply set_del_in in I. tauto.
  - assert (NE : (sp, x) <> (a, b)) by (intros X; apply ent_eqb_eq in X; congruence).
    rewrite (aget_del_other ent_eqb ent_eqb_eq) by auto. rewrite (L sp x).
    destruct (bseq sp a) eqn:ES.
    + apply bseq_eq in ES as ->. rewrite (aget_put_same bseq bseq_eq), E.
      assert (XB : x <> b) by congruence. split; intros (y & H & I).
      * eexists. split; [reflexivity|]. cbn [sp_models]. apply set_del_in. inversion H; subst; auto.
      * inversion H; subst. cbn [sp_models] in I. apply set_del_in in I as [_ I]. eauto.
    + apply bseq_neq in ES. rewrite (aget_put_other bseq bseq_eq) by exact ES. reflexivity.
Qed.

(** dropping all models of a space *)
Definition del_models (sp : bytes) (names : list bytes) (ms : list (ent * mmodel)) :=
  fold_left (fun ms m => adel ent_eqb (sp, m) ms) names ms.

Lemma del_models_get sp names : forall ms id,
  aget ent_eqb id (del_models sp names ms) =
  if bseq (fst id) sp && set_has (snd id) names then None else aget ent_eqb id ms.
Proof.
  induction names as [|x names IH]; intros ms id; cbn [del_models fold_left].
  - rewrite andb_false_r. reflexivity.
  - fold (del_models sp names (adel ent_eqb (sp, x) ms)). rewrite IH. destruct id as [a b]. cbn [fst snd].
    unfold set_has. cbn [existsb]. fold (set_has b names).
    destruct (bseq a sp) eqn:EA; cbn [andb].
    + apply bseq_eq in EA as ->. destruct (bseq b x) eqn:EX; cbn [orb].
      * apply bseq_eq in EX as ->. rewrite (aget_del_same ent_eqb). destruct (set_has x names); reflexivity.
      * apply bseq_neq in EX. rewrite (aget_del_other ent_eqb ent_eqb_eq) by congruence. reflexivity.
    + apply bseq_neq in EA. apply (aget_del_other ent_eqb ent_eqb_eq). congruence.
Qed.

Lemma del_models_nodup sp names : forall ms, NoDup (akeys ms) -> NoDup (akeys (del_models sp names ms)).
Proof.
  induction names as [|x names IH]; intros ms H; [exact H|].
  cbn [del_models fold_left]. apply IH. apply (nodup_del ent_eqb ent_eqb_eq). exact H.
Qed.

Lemma drop_models_ok sp names : forall ms, NoDup names ->
  (forall m, In m names -> exists x, aget ent_eqb (sp, m) ms = Some x) ->
  drop_models sp names ms = Some (del_models sp names ms).
Proof.
  induction names as [|x names IH]; intros ms ND H; [reflexivity|].
  cbn [drop_models]. destruct (H x (or_introl eq_refl)) as [y ->].
  inversion ND; subst. rewrite IH; auto.
  intros m Hm. destruct (H m (or_intror Hm)) as [z Hz]. exists z.
  rewrite (aget_del_other ent_eqb ent_eqb_eq); auto. intros E. inversion E; subst. contradiction.
Qed.

Lemma wf_drop_space n k names : ns_wf n ->
  ns_wf (set_spaces (adel bseq k (n_spaces n)) (set_models (del_models k names (n_models n)) n)).
Proof.
  intros W.
  assert (W1 : ns_wf (set_models (del_models k names (n_models n)) n)).
  { constructor; cbn [set_models n_spaces n_models n_users]; try apply W.
    - apply del_models_nodup. apply W.
    - intros id m H. rewrite del_models_get in H. destruct (_ && _); [discriminate|]. eapply wf_model; eauto. }
  exact (wf_del_space _ k W1).
Qed.

Lemma link_drop_space n k s : ns_link n -> aget bseq k (n_spaces n) = Some s ->
  ns_link (set_spaces (adel bseq k (n_spaces n)) (set_models (del_models k (sp_models s) (n_models n)) n)).
Proof.
  intros L E sp m. cbn [set_models set_spaces n_spaces n_models]. rewrite del_models_get. cbn [fst snd].
  destruct (bseq sp k) eqn:EB; cbn [andb].
  - apply bseq_eq in EB as ->. rewrite (aget_del_same bseq). split.
    + intros [x H]. exfalso. destruct (set_has m (sp_models s)) eqn:ES; [discriminate|].
      assert (X : exists x, aget ent_eqb (k, m) (n_models n) = Some x) by eauto.
      apply L in X as (s' & X & I). rewrite E in X. inversion X; subst.
      apply set_has_in in I. congruence.
    + intros (x & H & _). discriminate.
  - apply bseq_neq in EB. rewrite (aget_del_other bseq bseq_eq) by exact EB. apply L.
Qed.

(** ** Replayed namespace against live namespace *)

Definition srel (a b : bytes * mspace) : Prop :=
  fst a = fst b /\ sp_uuid (snd a) = sp_uuid (snd b) /\ sp_models (snd a) = sp_models (snd b) /\
  prel (sp_props (snd a)) (sp_props (snd b)).
Definition ns_rel (n n' : ns) : Prop :=
  Forall2 srel (n_spaces n) (n_spaces n') /\ n_models n = n_models n' /\ n_users n = n_users n'.

Lemma srel_refl a : srel a a.
Proof. unfold srel, prel. auto. Qed.
Lemma forall2_refl {A} (R : A -> A -> Prop) (H : forall a, R a a) l : Forall2 R l l.
Proof. induction l; constructor; auto. Qed.
Lemma ns_rel_refl n : ns_rel n n.
Proof. split; [|auto]. apply forall2_refl, srel_refl. Qed.
Lemma ns_rel_trans a b c : ns_rel a b -> ns_rel b c -> ns_rel a c.
Proof.
  intros (S1 & M1 & U1) (S2 & M2 & U2). split; [|split; congruence].
  revert S2. generalize (n_spaces c). induction S1 as [|x y l l' H S1 IH]; intros lc S2.
  - inversion S2; constructor.
  - inversion S2 as [|? z ? lz H2 S2']; subst. constructor; auto.
    destruct H as (E1 & E2 & E3 & E4), H2 as (F1 & F2 & F3 & F4).
    unfold srel. repeat split; try congruence. eapply prel_trans; eauto.
Qed.

Lemma srel_get l l' k : Forall2 srel l l' ->
  match aget bseq k l, aget bseq k l' with
  | Some s, Some s' => srel (k, s) (k, s')
  | None, None => True
  | _, _ => False
  end.
Proof.
  induction 1 as [|[a s] [b s'] l l' H HF IH]; cbn [aget]; [exact I|].
  destruct H as (E & H). cbn [fst snd] in *. subst b.
  destruct (bseq k a); [|exact IH]. split; auto.
Qed.
Lemma srel_put l l' k s s' : Forall2 srel l l' -> srel (k, s) (k, s') ->
  Forall2 srel (aput bseq k s l) (aput bseq k s' l').
Proof.
  intros H HS. induction H as [|[a x] [b x'] l l' H HF IH]; cbn [aput]; [constructor; auto|].
  destruct H as (E & H). cbn [fst snd] in *. subst b.
  destruct (bseq k a); constructor; auto. split; auto.
Qed.
Lemma srel_del l l' k : Forall2 srel l l' -> Forall2 srel (adel bseq k l) (adel bseq k l').
Proof.
  unfold adel. induction 1 as [|[a x] [b x'] l l' H HF IH]; cbn [filter fst]; [constructor|].
  destruct H as (E & H). cbn [fst snd] in *. subst b.
  destruct (negb (bseq k a)); auto. constructor; auto. split; auto.
Qed.

(** logged events whose replay does not depend on the space properties being intact *)
Definition ev_good (e : gns_event) : Prop :=
  match e with EvAlterSpace _ p => patch_shape p | _ => True end.

Lemma apply_rel n n' e na : ns_rel n n' -> ev_good e ->
  apply_event n e = Some na -> exists na', apply_event n' e = Some na' /\ ns_rel na na'.
Proof.
  intros (HS & HM & HU) HG H.
  destruct e as [name sp|sid p|sid|sid name lay|mid fs|mid ks|mid fs|mid|name h|name h|name];
    cbn [apply_event] in *.
  - pose proof (srel_get _ _ name HS) as X.
    destruct (aget bseq name (n_spaces n)) eqn:E1, (aget bseq name (n_spaces n')) eqn:E2; try contradiction; try discriminate.
    inversion H; subst na. eexists. split; [reflexivity|]. split; [|split; assumption].
    cbn [set_spaces n_spaces]. apply srel_put; [assumption|]. apply srel_refl.
  - pose proof (srel_get _ _ (sid_name sid) HS) as X.
    destruct (aget bseq (sid_name sid) (n_spaces n)) as [s|] eqn:E1; [|discriminate].
    destruct (aget bseq (sid_name sid) (n_spaces n')) as [s'|] eqn:E2; [|contradiction].
    destruct (merge_metadata (sp_props s) p) as [[d|]|] eqn:EM; try discriminate.
    inversion H; subst na. destruct X as (_ & X1 & X2 & X3). cbn [snd] in *.
    assert (HM' : exists d', merge_metadata (sp_props s') p = Some (Some d') /\ prel d d').
    { destruct X3 as [X3|X3].
      - rewrite <- X3. exists d. split; [exact EM|left; reflexivity].
      - rewrite X3. exists []. split; [apply merge_lost; exact HG|right; reflexivity]. }
    destruct HM' as (d' & EM' & PD). rewrite EM'. eexists. split; [reflexivity|].
    split; [|split; assumption]. cbn [set_spaces n_spaces]. apply srel_put; [assumption|].
    unfold srel. cbn [fst snd sp_uuid sp_models sp_props]. auto.
  - pose proof (srel_get _ _ (sid_name sid) HS) as X.
    destruct (aget bseq (sid_name sid) (n_spaces n)) as [s|] eqn:E1; [|discriminate].
    destruct (aget bseq (sid_name sid) (n_spaces n')) as [s'|] eqn:E2; [|contradiction].
    destruct X as (_ & X1 & X2 & X3). cbn [snd] in *. rewrite <- X1, <- X2.
    destruct (sp_uuid s =? sid_uuid sid); [|discriminate].
    inversion H; subst na. eexists. split; [reflexivity|]. unfold ns_rel. cbn [set_spaces set_models n_spaces n_models n_users].
    rewrite HM. split; [apply srel_del; assumption|auto].
  - pose proof (srel_get _ _ (sid_name sid) HS) as X.
    destruct (aget bseq (sid_name sid) (n_spaces n)) as [s|] eqn:E1; [|discriminate].
    destruct (aget bseq (sid_name sid) (n_spaces n')) as [s'|] eqn:E2; [|contradiction].
    destruct X as (_ & X1 & X2 & X3). cbn [snd] in *. rewrite <- X1, <- X2, <- HM.
    destruct (set_has name (sp_models s)); [discriminate|].
    destruct (aget ent_eqb _ (n_models n)); [discriminate|].
    inversion H; subst na. eexists. split; [reflexivity|]. unfold ns_rel. cbn [set_spaces set_models n_spaces n_models n_users].
    split; [|auto]. apply srel_put; [assumption|]. unfold srel. cbn [fst snd sp_uuid sp_models sp_props]. auto.
  - unfold with_model_mut, with_space in *.
    pose proof (srel_get _ _ (sid_name (mid_space mid)) HS) as X.
    destruct (aget bseq (sid_name (mid_space mid)) (n_spaces n)) as [s|] eqn:E1; [|discriminate].
    destruct (aget bseq (sid_name (mid_space mid)) (n_spaces n')) as [s'|] eqn:E2; [|contradiction].
    destruct X as (_ & X1 & _). cbn [snd] in *. rewrite <- X1, <- HM.
    destruct (sp_uuid s =? _); [|discriminate]. destruct (aget ent_eqb _ (n_models n)) as [m|]; [|discriminate].
    destruct (lo_uuid (md_lay m) =? mid_uuid mid); [|discriminate].
    destruct (replay_add fs m) as [m'|]; [|discriminate]. inversion H; subst na.
    eexists. split; [reflexivity|]. split; auto.
  - unfold with_model_mut, with_space in *.
    pose proof (srel_get _ _ (sid_name (mid_space mid)) HS) as X.
    destruct (aget bseq (sid_name (mid_space mid)) (n_spaces n)) as [s|] eqn:E1; [|discriminate].
    destruct (aget bseq (sid_name (mid_space mid)) (n_spaces n')) as [s'|] eqn:E2; [|contradiction].
    destruct X as (_ & X1 & _). cbn [snd] in *. rewrite <- X1, <- HM.
    destruct (sp_uuid s =? _); [|discriminate]. destruct (aget ent_eqb _ (n_models n)) as [m|]; [|discriminate].
    destruct (lo_uuid (md_lay m) =? mid_uuid mid); [|discriminate].
    destruct (replay_rem ks m) as [m'|]; [|discriminate]. inversion H; subst na.
    eexists. split; [reflexivity|]. split; auto.
  - unfold with_model_mut, with_space in *.
    pose proof (srel_get _ _ (sid_name (mid_space mid)) HS) as X.
    destruct (aget bseq (sid_name (mid_space mid)) (n_spaces n)) as [s|] eqn:E1; [|discriminate].
    destruct (aget bseq (sid_name (mid_space mid)) (n_spaces n')) as [s'|] eqn:E2; [|contradiction].
    destruct X as (_ & X1 & _). cbn [snd] in *. rewrite <- X1, <- HM.
    destruct (sp_uuid s =? _); [|discriminate]. destruct (aget ent_eqb _ (n_models n)) as [m|]; [|discriminate].
    destruct (lo_uuid (md_lay m) =? mid_uuid mid); [|discriminate].
    destruct (replay_upd fs m) as [m'|]; [|discriminate]. inversion H; subst na.
    eexists. split; [reflexivity|]. split; auto.
  - unfold with_space in *.
    pose proof (srel_get _ _ (sid_name (mid_space mid)) HS) as X.
    destruct (aget bseq (sid_name (mid_space mid)) (n_spaces n)) as [s|] eqn:E1; [|discriminate].
    destruct (aget bseq (sid_name (mid_space mid)) (n_spaces n')) as [s'|] eqn:E2; [|contradiction].
    destruct X as (_ & X1 & X2 & X3). cbn [snd] in *. rewrite <- X1, <- X2, <- HM.
    destruct (sp_uuid s =? _); [|discriminate]. destruct (negb _); [discriminate|].
    destruct (aget ent_eqb _ (n_models n)) as [m|]; [|discriminate].
    destruct (lo_uuid (md_lay m) =? mid_uuid mid); [|discriminate]. inversion H; subst na.
    eexists. split; [reflexivity|]. unfold ns_rel. cbn [set_spaces set_models n_spaces n_models n_users].
    split; [|auto]. apply srel_put; [assumption|]. unfold srel. cbn [fst snd sp_uuid sp_models sp_props]. auto.
  - rewrite <- HU. destruct (aget bseq name (n_users n)); [discriminate|]. inversion H; subst na.
    eexists. split; [reflexivity|]. split; auto.
  - rewrite <- HU. destruct (aget bseq name (n_users n)); [|discriminate]. inversion H; subst na.
    eexists. split; [reflexivity|]. split; auto.
  - rewrite <- HU. destruct (aget bseq name (n_users n)); [|discriminate]. inversion H; subst na.
    eexists. split; [reflexivity|]. split; auto.
Qed.

Lemma replay_app n l1 l2 : replay n (l1 ++ l2) =
  match replay n l1 with Some n' => replay n' l2 | None => None end.
Proof.
  revert n. induction l1 as [|e l1 IH]; intros n; cbn [app replay]; [reflexivity|].
  destruct (apply_event n e); auto.
Qed.

(** ** What one statement does *)

(** statements as the parser can produce them: property dictionaries have no repeated keys *)
Definition stmt_nd (s : stmt) : Prop :=
  match s with SCreateSpace _ p _ | SAlterSpace _ p => dict_nd p | _ => True end.
(** no ALTER SPACE that sets the environment to null *)
Definition no_env_null (s : stmt) : Prop :=
  match s with SAlterSpace _ p => dget KEY_ENV p <> Some (DData CNull) | _ => True end.
(** some field of an ALTER MODEL carries [nullable: null] *)
Definition null_nullable (s : stmt) : Prop :=
  match s with
  | SAlterModel _ (AkAdd l) | SAlterModel _ (AkUpdate l) =>
      exists x, In x l /\ dget (bstr "nullable"%string) (ef_props x) = Some (DData CNull)
  | _ => False
  end.
(** every space still has its environment *)
Definition full (n : ns) : Prop := forall k s, aget bseq k (n_spaces n) = Some s -> sp_props s <> [].

Inductive effect (ex : Prop) (w w' : world) : Prop :=
| eff_same : w_ns w' = w_ns w -> w_log w' = w_log w -> effect ex w w'
| eff_commit e na : w_log w' = w_log w ++ [e] -> w_iffy w = false -> ev_good e ->
    apply_event (w_ns w) e = Some na -> ns_rel (w_ns w') na -> (ex -> na = w_ns w') ->
    ns_wf (w_ns w') -> ns_link (w_ns w') -> (full (w_ns w) -> full (w_ns w')) -> effect ex w w'.

Definition outcome_ok (s : stmt) (w w' : world) (o : outcome) : Prop :=
  match o with
  | OErr _ => w_ns w' = w_ns w /\ w_log w' = w_log w
  | OPanic => w' = w /\ null_nullable s
  | _ => w_iffy w' = w_iffy w
  end.

Definition failed_forced_drop (s : stmt) (o : outcome) : Prop :=
  match s with SDropSpace _ true _ => o = OErr ErrServer | _ => False end.

Definition good (ex : Prop) (s : stmt) (w w' : world) (o : outcome) : Prop :=
  effect ex w w' /\ outcome_ok s w w' o.

Lemma good_same ex s w o : match o with OPanic => False | _ => True end -> good ex s w w o.
Proof. intros H. split; [apply eff_same; reflexivity|]. destruct o; cbn; auto. contradiction. Qed.

Lemma commit_true c e w w1 : driver_commit c e w = (w1, true) ->
  w_iffy w = false /\ w1 = mk_world (w_ns w) (w_log w ++ [e]) false.
Proof. unfold driver_commit. destruct (w_iffy w), c; intros H; inversion H; auto. Qed.
Lemma commit_false c e w w1 : driver_commit c e w = (w1, false) ->
  w_ns w1 = w_ns w /\ w_log w1 = w_log w.
Proof. unfold driver_commit. destruct (w_iffy w), c; intros H; inversion H; auto. Qed.
Lemma good_fail ex s c e w w1 : driver_commit c e w = (w1, false) -> good ex s w w1 (OErr ErrServer).
Proof. intros H. apply commit_false in H as [H1 H2]. split; [apply eff_same; auto|split; auto]. Qed.

Lemma full_put n k s : full n -> sp_props s <> [] -> full (set_spaces (aput bseq k s (n_spaces n)) n).
Proof.
  intros F H k' s'. cbn [set_spaces n_spaces]. destruct (bseq k' k) eqn:E.
  - apply bseq_eq in E as ->. rewrite (aget_put_same bseq bseq_eq). intros X. inversion X; subst; auto.
  - apply bseq_neq in E. rewrite (aget_put_other bseq bseq_eq) by exact E. apply F.
Qed.
Lemma full_del n k : full n -> full (set_spaces (adel bseq k (n_spaces n)) n).
Proof.
  intros F k' s'. cbn [set_spaces n_spaces]. destruct (bseq k' k) eqn:E.
  - apply bseq_eq in E as ->. rewrite (aget_del_same bseq). discriminate.
  - apply bseq_neq in E. rewrite (aget_del_other bseq bseq_eq) by exact E. apply F.
Qed.
Lemma full_models n m : full n -> full (set_models m n).
Proof. intros F. exact F. Qed.

Lemma cell_null c : cell_init c = false -> c = CNull.
Proof. destruct c; cbn; try discriminate; auto. Qed.

Lemma opt_bool_ok ex s w w' c b : effect ex w w' -> w_iffy w' = w_iffy w -> good ex s w w' (opt_bool c b).
Proof. intros H HI. split; [exact H|]. destruct c; exact HI. Qed.

Lemma create_space_good ex en w name props nx w' o :
  dict_nd props -> ns_wf (w_ns w) -> ns_link (w_ns w) ->
  exec_create_space en w name props nx = (w', o) -> good ex (SCreateSpace name props nx) w w' o.
Proof.
  intros ND W L. unfold exec_create_space.
  destruct (create_space_props props) as [p|] eqn:EP; [|intros H; inversion H; apply good_same; exact I].
  destruct (aget bseq name (n_spaces (w_ns w))) eqn:EG.
  { intros H. inversion H. apply good_same. destruct nx; exact I. }
  destruct (negb (e_init en)); [intros H; inversion H; apply good_same; exact I|].
  destruct (driver_commit _ _ w) as [w1 [|]] eqn:EC; [|intros H; inversion H; subst; eapply good_fail; eauto].
  apply commit_true in EC as [EI ->]. cbn [w_ns w_log with_ns]. intros H. inversion H; subst; clear H.
  apply opt_bool_ok; [|cbn; auto].
  destruct (create_props_shape _ _ ND EP) as (d & -> & SD).
  eapply eff_commit; cbn [w_ns w_log with_ns].
  - reflexivity.
  - exact EI.
  - exact I.
  - cbn [apply_event]. rewrite EG. reflexivity.
  - apply ns_rel_refl.
  - reflexivity.
  - apply wf_put_space; auto; [constructor|]. right. exists d. auto.
  - apply link_new_space; auto.
  - intros F. apply full_put; auto. cbn. discriminate.
Qed.

Lemma dict_nd_env_empty : dict_nd [(KEY_ENV, DMap [])].
Proof.
  unfold dict_nd. cbn. repeat constructor; auto.
Qed.

Lemma env_key_same d : shape d -> d <> [] -> dget KEY_ENV d <> None.
Proof. intros [H|(x & -> & _)] HN; [contradiction|]. rewrite dget_env_1. discriminate. Qed.

Lemma alter_space_go_good (ex : Prop) en w name s e :
  (ex -> e <> DData CNull /\ full (w_ns w)) ->
  dict_nd [(KEY_ENV, e)] -> (e = DData CNull \/ exists m, e = DMap m) ->
  ns_wf (w_ns w) -> ns_link (w_ns w) -> aget bseq name (n_spaces (w_ns w)) = Some s ->
  forall w' o,
  match prepare_patch (sp_props s) [(KEY_ENV, e)] with
  | None => (w, OErr ErrProps)
  | Some patch =>
      let '(w1, ok) := driver_commit (e_commit en) (EvAlterSpace (mk_sid (sp_uuid s) name) patch) w in
      if ok then
        match merge (sp_props s) patch with
        | None => (w1, OPanic)
        | Some d =>
            let d' := match dget KEY_ENV d with Some _ => d | None => aput bseq KEY_ENV (DMap []) d end in
            (with_ns w1 (set_spaces (aput bseq name (mk_mspace (sp_uuid s) (sp_models s) d')
                                       (n_spaces (w_ns w1))) (w_ns w1)), OEmpty)
        end
      else (w1, OErr ErrServer)
  end = (w', o) -> good ex (SAlterSpace name [(KEY_ENV, e)]) w w' o.
Proof.
  intros HEX ND HE W L EG w' o.
  destruct (prepare_patch (sp_props s) [(KEY_ENV, e)]) as [p|] eqn:EP; [|intros H; inversion H; apply good_same; exact I].
  destruct (driver_commit _ _ w) as [w1 [|]] eqn:EC; [|intros H; inversion H; subst; eapply good_fail; eauto].
  apply commit_true in EC as [EI ->]. cbn [w_ns w_log].
  destruct (wf_space _ W _ _ EG) as [SM SS].
  destruct (alter_patch_shape _ _ _ SS ND HE EP) as (PS & d & EM & EMM & SD & HD1 & HD2). rewrite EM.
  intros H. inversion H; subst; clear H. split; [|cbn; auto].
  eapply eff_commit; cbn [w_ns w_log with_ns].
  - reflexivity.
  - exact EI.
  - exact PS.
  - cbn [apply_event sid_name]. rewrite EG, EMM. reflexivity.
  - split; [|split; reflexivity]. cbn [set_spaces n_spaces]. apply srel_put; [apply forall2_refl, srel_refl|].
    unfold srel. cbn [fst snd sp_uuid sp_models sp_props]. repeat split; auto.
    destruct (dget KEY_ENV d) eqn:ED; [left; reflexivity|]. right.
    destruct SD as [->|(y & -> & _)]; [reflexivity|]. rewrite dget_env_1 in ED. discriminate.
  - intros X. destruct (HEX X) as [X1 X2]. f_equal. f_equal. f_equal.
    assert (DN : d <> []).
    { destruct HE as [HE|HE]; [contradiction|]. apply HD1; auto. eapply X2; eauto. }
    destruct (dget KEY_ENV d) eqn:ED; [reflexivity|]. exfalso. eapply env_key_same; eauto.
  - apply wf_put_space; auto. cbn [sp_props].
    destruct (dget KEY_ENV d) eqn:ED; auto.
    destruct SD as [->|(y & -> & _)]; [|rewrite dget_env_1 in ED; discriminate].
    right. exists []. split; [reflexivity|]. apply (dict_nd_env_empty).
  - eapply link_put_space; eauto.
  - intros F. apply full_put; auto. cbn [sp_props]. destruct (dget KEY_ENV d) eqn:ED.
    + intros ->. discriminate.
    + destruct d as [|[? ?] ?]; cbn [aput]; [discriminate|]. destruct (bseq _ _); discriminate.
Qed.

Lemma alter_space_good (ex : Prop) en w name props w' o :
  (ex -> dget KEY_ENV props <> Some (DData CNull) /\ full (w_ns w)) ->
  dict_nd props -> ns_wf (w_ns w) -> ns_link (w_ns w) ->
  exec_alter_space en w name props = (w', o) -> good ex (SAlterSpace name props) w w' o.
Proof.
  intros HEX ND W L. unfold exec_alter_space.
  destruct (aget bseq name (n_spaces (w_ns w))) as [s|] eqn:EG; [|intros H; inversion H; apply good_same; exact I].
  destruct (dget KEY_ENV props) as [e|] eqn:EE.
  2:{ destruct props; intros H; inversion H; apply good_same; exact I. }
  assert (GO : length props = 1%nat -> (e = DData CNull \/ exists m, e = DMap m) -> forall w' o,
    match prepare_patch (sp_props s) props with
    | None => (w, OErr ErrProps)
    | Some patch =>
        let '(w1, ok) := driver_commit (e_commit en) (EvAlterSpace (mk_sid (sp_uuid s) name) patch) w in
        if ok then
          match merge (sp_props s) patch with
          | None => (w1, OPanic)
          | Some d =>
              let d' := match dget KEY_ENV d with Some _ => d | None => aput bseq KEY_ENV (DMap []) d end in
              (with_ns w1 (set_spaces (aput bseq name (mk_mspace (sp_uuid s) (sp_models s) d')
                                         (n_spaces (w_ns w1))) (w_ns w1)), OEmpty)
          end
        else (w1, OErr ErrServer)
    end = (w', o) -> good ex (SAlterSpace name props) w w' o).
  { intros LE HE. pose proof (one_env _ _ EE LE) as X. subst props.
    apply alter_space_go_good; auto. intros X. apply HEX in X as [X1 X2]. split; auto. congruence. }
  destruct e as [c|m].
  - destruct (Nat.eqb (length props) 1 && negb (cell_init c)) eqn:EL; [|intros H; inversion H; apply good_same; exact I].
    apply andb_true_iff in EL as [EL EN]. apply Nat.eqb_eq in EL. apply negb_true_iff, cell_null in EN. subst c.
    apply GO; auto.
  - destruct (Nat.eqb (length props) 1) eqn:EL; [|intros H; inversion H; apply good_same; exact I].
    apply Nat.eqb_eq in EL. apply GO; eauto.
Qed.

Lemma drop_space_good ex en w name force exs w' o :
  ns_wf (w_ns w) -> ns_link (w_ns w) ->
  exec_drop_space en w name force exs = (w', o) ->
  (failed_forced_drop (SDropSpace name force exs) o /\ aget bseq name (n_spaces (w_ns w)) <> None /\
   w_ns w' = set_spaces (adel bseq name (n_spaces (w_ns w))) (w_ns w) /\ w_log w' = w_log w) \/
  good ex (SDropSpace name force exs) w w' o.
Proof.
  intros W L. unfold exec_drop_space.
  destruct (aget bseq name (n_spaces (w_ns w))) as [s|] eqn:EG.
  2:{ intros H. inversion H. right. apply good_same. destruct exs; exact I. }
  destruct (wf_space _ W _ _ EG) as [SM SS].
  destruct force.
  - destruct (driver_commit _ _ _) as [w1 [|]] eqn:EC.
    + apply commit_true in EC as [EI ->]. cbn [w_ns w_log with_ns set_spaces n_models w_iffy] in *.
      rewrite drop_models_ok; auto.
      2:{ intros m Hm. apply L. eauto. }
      intros H. inversion H; subst; clear H. right. apply opt_bool_ok; [|cbn; auto].
      eapply eff_commit; cbn [w_ns w_log with_ns].
      * reflexivity.
      * exact EI.
      * exact I.
      * cbn [apply_event sid_name sid_uuid]. rewrite EG, N.eqb_refl. reflexivity.
      * apply ns_rel_refl.
      * reflexivity.
      * apply (wf_drop_space _ name (sp_models s) W).
      * apply (link_drop_space _ _ _ L EG).
      * intros F. apply (full_del _ name F).
    + apply commit_false in EC as [E1 E2]. intros H. inversion H; subst; clear H. left.
      split; [reflexivity|]. split; [discriminate|]. split; [rewrite E1; reflexivity|rewrite E2; reflexivity].
  - intros H. right. destruct (sp_models s) as [|m0 ms] eqn:EM; [|inversion H; apply good_same; exact I].
    revert H. destruct (driver_commit _ _ _) as [w1 [|]] eqn:EC; [|intros H; inversion H; subst; eapply good_fail; eauto].
    apply commit_true in EC as [EI ->]. cbn [w_ns w_log with_ns]. intros H. inversion H; subst; clear H.
    apply opt_bool_ok; [|cbn; auto].
    eapply eff_commit; cbn [w_ns w_log with_ns].
    + reflexivity.
    + exact EI.
    + exact I.
    + cbn [apply_event sid_name sid_uuid]. rewrite EG, N.eqb_refl, EM. reflexivity.
    + apply ns_rel_refl.
    + reflexivity.
    + apply wf_del_space; auto.
    + pose proof (link_drop_space _ _ _ L EG) as X. rewrite EM in X. exact X.
    + intros F. apply (full_del _ name F).
Qed.

Lemma check_nullable_none d : check_nullable d = None -> dget (bstr "nullable"%string) d = Some (DData CNull).
Proof.
  unfold check_nullable. destruct (dget _ d) as [[c|m]|]; try discriminate. destruct c; try discriminate. auto.
Qed.
Lemma add_plan_none pk fs l : forall add, add_plan pk fs l add = None ->
  exists x, In x l /\ dget (bstr "nullable"%string) (ef_props x) = Some (DData CNull).
Proof.
  induction l as [|x l IH]; intros add H; cbn [add_plan] in H; [discriminate|].
  destruct (check_nullable (ef_props x)) as [[e|[n r]]|] eqn:EN; [discriminate| |].
  - destruct (parse_layers _ _); [|discriminate]. destruct (f_insert _ _ _) as [a fr].
    destruct (_ && _); [|discriminate]. apply IH in H as (y & HY & HZ). exists y. split; [right|]; auto.
  - exists x. split; [left; auto|]. apply check_nullable_none; auto.
Qed.
Lemma upd_plan_none pk fs l : forall nl d new, upd_plan pk fs l nl d new = None ->
  exists x, In x l /\ dget (bstr "nullable"%string) (ef_props x) = Some (DData CNull).
Proof.
  induction l as [|x l IH]; intros nl d new H; cbn [upd_plan] in H; [discriminate|].
  destruct (bseq (ef_name x) pk); [discriminate|]. destruct (f_get _ fs); [|discriminate].
  destruct (check_nullable (ef_props x)) as [[e|[n r]]|] eqn:EN; [discriminate| |].
  - destruct (ldeltas _ _ _) as [e|[[nl2 d2] f2]]; [discriminate|]. destruct (f_insert _ _ _) as [a fr].
    destruct (_ && _); [|discriminate]. apply IH in H as (y & HY & HZ). exists y. split; [right|]; auto.
  - exists x. split; [left; auto|]. apply check_nullable_none; auto.
Qed.

Lemma create_model_good ex en w id fields props nx w' o :
  ns_wf (w_ns w) -> ns_link (w_ns w) ->
  exec_create_model en w id fields props nx = (w', o) -> good ex (SCreateModel id fields props nx) w w' o.
Proof.
  intros W L. unfold exec_create_model. destruct id as [a b]. cbn [fst snd].
  destruct (process_create_model (e_uuid en) fields props) as [e|lay] eqn:EP; [intros H; inversion H; apply good_same; exact I|].
  destruct (aget bseq (a) (n_spaces (w_ns w))) as [s|] eqn:EG; [|intros H; inversion H; apply good_same; exact I].
  destruct (set_has (b) (sp_models s)) eqn:EH.
  { intros H. inversion H. apply good_same. destruct nx; exact I. }
  destruct (negb (e_init en)); [intros H; inversion H; apply good_same; exact I|].
  destruct (driver_commit _ _ w) as [w1 [|]] eqn:EC; [|intros H; inversion H; subst; eapply good_fail; eauto].
  apply commit_true in EC as [EI ->]. cbn [w_ns w_log with_ns]. intros H. inversion H; subst; clear H.
  apply opt_bool_ok; [|cbn; auto]. destruct (wf_space _ W _ _ EG) as [SM SS].
  assert (EN : aget ent_eqb (a, b) (n_models (w_ns w)) = None).
  { destruct (aget ent_eqb (a, b) (n_models (w_ns w))) eqn:X; [|reflexivity]. exfalso.
    destruct (proj1 (L a b)) as (s' & H1 & H2); [eauto|]. rewrite EG in H1. inversion H1; subst.
    apply set_has_in in H2. congruence. }
  assert (WM := wf_put_model _ (a, b) (mk_mmodel lay 0) W (process_create_ok _ _ _ _ EP)).
  eapply eff_commit; cbn [w_ns w_log with_ns].
  - reflexivity.
  - exact EI.
  - exact I.
  - cbn [apply_event sid_name]. rewrite EG, EH, EN. reflexivity.
  - apply ns_rel_refl.
  - reflexivity.
  - apply (wf_put_space _ _ _ WM); cbn [sp_models sp_props]; auto. apply set_add_nodup. auto.
  - apply (link_create_model _ (a, b)); auto.
  - intros F. apply (full_put (set_models _ (w_ns w)) _ _ (full_models _ _ F)). cbn. eapply F; eauto.
Qed.

Lemma drop_model_good ex en w id force exs w' o :
  ns_wf (w_ns w) -> ns_link (w_ns w) ->
  exec_drop_model en w id force exs = (w', o) -> good ex (SDropModel id force exs) w w' o.
Proof.
  intros W L. unfold exec_drop_model.
  destruct (aget bseq (fst id) (n_spaces (w_ns w))) as [s|] eqn:EG; [|intros H; inversion H; apply good_same; exact I].
  destruct (set_has (snd id) (sp_models s)) eqn:EH; cbn [negb].
  2:{ intros H. inversion H. apply good_same. destruct exs; exact I. }
  destruct id as [a b]. cbn [fst snd] in *.
  destruct (aget ent_eqb (a, b) (n_models (w_ns w))) as [m|] eqn:EM.
  2:{ exfalso. destruct (proj2 (L a b)) as [x X]; [|congruence]. exists s. split; auto. apply set_has_in; auto. }
  destruct (negb _ && negb force); [intros H; inversion H; apply good_same; exact I|].
  destruct (driver_commit _ _ w) as [w1 [|]] eqn:EC; [|intros H; inversion H; subst; eapply good_fail; eauto].
  apply commit_true in EC as [EI ->]. cbn [w_ns w_log with_ns]. intros H. inversion H; subst; clear H.
  apply opt_bool_ok; [|cbn; auto]. destruct (wf_space _ W _ _ EG) as [SM SS].
  eapply eff_commit; cbn [w_ns w_log with_ns].
  - reflexivity.
  - exact EI.
  - exact I.
  - cbn [apply_event mid_space mid_name mid_uuid]. unfold with_space. cbn [sid_name sid_uuid].
    rewrite EG, N.eqb_refl, EH. cbn [negb]. rewrite EM, N.eqb_refl. reflexivity.
  - apply ns_rel_refl.
  - reflexivity.
  - apply (wf_put_space _ _ _ (wf_del_model _ (a, b) W)); cbn [sp_models sp_props]; auto. apply set_del_nodup. auto.
  - apply (link_drop_model _ (a, b) s); auto.
  - intros F. apply (full_put (set_models _ (w_ns w)) _ _ (full_models _ _ F)). cbn. eapply F; eauto.
Qed.

Section ExecProofs.
Variable order : fieldmap -> fieldmap.
Variable hash : bytes -> N -> bytes.
Hypothesis order_perm : forall l, Permutation (order l) l.

Lemma fdeltas_none m k id : fdeltas order m k = None -> null_nullable (SAlterModel id k).
Proof.
  destruct k as [l|ks|l]; cbn [fdeltas null_nullable].
  - destruct (add_plan _ _ l []) as [[e|a]|] eqn:E; try discriminate. intros _. eapply add_plan_none; eauto.
  - destruct (negb _); [discriminate|]. destruct (rem_check _ _ ks); discriminate.
  - destruct (upd_plan _ _ l true false []) as [[e|[[nl d] new]]|] eqn:E; try discriminate.
    intros _. eapply upd_plan_none; eauto.
Qed.

(** what a plan may contain *)
Lemma fdeltas_ok m k nl a : lay_ok (md_lay m) -> fdeltas order m k = Some (inr (nl, a)) ->
  match a with
  | AaIgnore => True
  | AaAdd fs => lay_ok (md_lay (live_add fs m)) /\ replay_add fs m = Some (live_add fs m)
  | AaRemove ks => lay_ok (md_lay (live_rem ks m)) /\ replay_rem ks m = Some (live_rem ks m)
  | AaUpdate fs => lay_ok (md_lay (live_upd fs m)) /\ replay_upd fs m = Some (live_upd fs m)
  end.
Proof.
  intros HL H. destruct k as [l|ks|l]; cbn [fdeltas] in H.
  - destruct (add_plan _ _ l []) as [[e|add]|] eqn:E; try discriminate. inversion H; subst; clear H.
    apply add_plan_ok in E as (E1 & E2 & E3); [|constructor|intros ? []|constructor].
    destruct add as [|x add]; [exact I|]. split.
    + apply live_add_ok; auto.
    + apply live_replay_add; auto. intros k Hk. apply E2 in Hk. tauto.
  - destruct (negb (no_dups ks)) eqn:ED; [discriminate|]. apply negb_false_iff, no_dups_ok in ED.
    destruct (rem_check _ _ ks) eqn:ER; [discriminate|]. pose proof (rem_check_ok _ _ _ ER) as RO.
    inversion H; subst; clear H. destruct ks as [|x ks]; [exact I|]. split.
    + apply live_rem_ok; auto. intros k Hk. apply RO in Hk. tauto.
    + apply live_replay_rem; auto. intros k Hk. apply RO in Hk. tauto.
  - destruct (upd_plan _ _ l true false []) as [[e|[[nl2 d] new]]|] eqn:E; try discriminate.
    inversion H; subst; clear H. destruct HL as (L1 & L2 & L3).
    destruct (upd_plan_ok _ _ _ _ _ _ _ _ _ L2 E) as (E1 & E2 & E3); [constructor|intros ? []|constructor|].
    destruct d; [|exact I].
    assert (KEYS : forall k, In k (f_keys (order new)) -> In k (f_keys new)).
    { intros k. unfold f_keys, akeys. apply Permutation_in. apply Permutation_map, order_perm. }
    assert (FO : Forall (fun kv => layers_ok (f_layers (snd kv))) (order new)).
    { rewrite Forall_forall in *. intros kv Hkv. apply E3. eapply Permutation_in; [apply order_perm|exact Hkv]. }
    split.
    + apply live_upd_ok; auto; [split; auto|]. intros k Hk. apply KEYS, E2 in Hk. tauto.
    + apply live_replay_upd. intros k Hk. apply KEYS, E2 in Hk. tauto.
Qed.

Lemma alter_model_good ex en w id k w' o :
  ns_wf (w_ns w) -> ns_link (w_ns w) ->
  exec_alter_model order en w id k = (w', o) -> good ex (SAlterModel id k) w w' o.
Proof.
  intros W L. unfold exec_alter_model.
  destruct (aget ent_eqb id (n_models (w_ns w))) as [m|] eqn:EM; [|intros H; inversion H; apply good_same; exact I].
  destruct id as [a b]. cbn [fst snd] in *.
  destruct (aget bseq a (n_spaces (w_ns w))) as [s|] eqn:EG.
  2:{ exfalso. destruct (proj1 (L a b)) as (s & X & _); [eauto|congruence]. }
  destruct (fdeltas order m k) as [[e|[nl act]]|] eqn:EF.
  - intros H; inversion H; apply good_same; exact I.
  - destruct (negb nl); [intros H; inversion H; apply good_same; exact I|].
    pose proof (wf_model _ W _ _ EM) as LO.
    pose proof (fdeltas_ok _ _ _ _ LO EF) as HA.
    set (mid := mk_mid (mk_sid (sp_uuid s) a) b (md_ver m) (lo_uuid (md_lay m))).
    assert (FIN : forall ev m', lay_ok (md_lay m') ->
      apply_event (w_ns w) ev = Some (set_models (aput ent_eqb (a, b) m' (n_models (w_ns w))) (w_ns w)) ->
      ev_good ev ->
      forall w' o, (let '(w1, ok) := driver_commit (e_commit en) ev w in
        if ok then (with_ns w1 (set_models (aput ent_eqb (a, b) m' (n_models (w_ns w1))) (w_ns w1)), OEmpty)
        else (w1, OErr ErrServer)) = (w', o) -> good ex (SAlterModel (a, b) k) w w' o).
    { intros ev m' LM AE GE w2 o2.
      destruct (driver_commit _ _ w) as [w1 [|]] eqn:EC; [|intros H; inversion H; subst; eapply good_fail; eauto].
      apply commit_true in EC as [EI ->]. cbn [w_ns w_log with_ns]. intros H. inversion H; subst; clear H.
      split; [|cbn; auto]. eapply eff_commit; cbn [w_ns w_log with_ns]; eauto.
      - apply ns_rel_refl.
      - apply wf_put_model; auto.
      - eapply link_put_model; eauto. }
    destruct act as [|fs|fs|ks].
    + intros H; inversion H; apply good_same; exact I.
    + destruct HA as [HA1 HA2]. apply FIN; auto; [|exact I]. cbn [apply_event]. unfold with_model_mut, with_space.
      subst mid. cbn [mid_space mid_name mid_uuid sid_name sid_uuid]. rewrite EG, N.eqb_refl, EM, N.eqb_refl, HA2. reflexivity.
    + destruct HA as [HA1 HA2]. apply FIN; auto; [|exact I]. cbn [apply_event]. unfold with_model_mut, with_space.
      subst mid. cbn [mid_space mid_name mid_uuid sid_name sid_uuid]. rewrite EG, N.eqb_refl, EM, N.eqb_refl, HA2. reflexivity.
    + destruct HA as [HA1 HA2]. apply FIN; auto; [|exact I]. cbn [apply_event]. unfold with_model_mut, with_space.
      subst mid. cbn [mid_space mid_name mid_uuid sid_name sid_uuid]. rewrite EG, N.eqb_refl, EM, N.eqb_refl, HA2. reflexivity.
  - intros H. inversion H; subst. split; [apply eff_same; reflexivity|]. split; [reflexivity|].
    eapply fdeltas_none; eauto.
Qed.

Lemma create_user_good ex en w name opts w' o :
  ns_wf (w_ns w) -> ns_link (w_ns w) ->
  exec_create_user hash en w name opts = (w', o) -> good ex (SCreateUser name opts) w w' o.
Proof.
  intros W L. unfold exec_create_user.
  destruct (user_password opts) as [p|]; [|intros H; inversion H; apply good_same; exact I].
  destruct (aget bseq name (n_users (w_ns w))) eqn:EU; [intros H; inversion H; apply good_same; exact I|].
  destruct (driver_commit _ _ w) as [w1 [|]] eqn:EC; [|intros H; inversion H; subst; eapply good_fail; eauto].
  apply commit_true in EC as [EI ->]. cbn [w_ns w_log with_ns]. intros H. inversion H; subst; clear H.
  split; [|cbn; auto]. eapply eff_commit; cbn [w_ns w_log with_ns]; eauto.
  - exact I.
  - cbn [apply_event]. rewrite EU. reflexivity.
  - apply ns_rel_refl.
  - apply wf_users; auto. apply (nodup_put bseq bseq_eq). apply W.
Qed.

Lemma drop_user_good ex en w name w' o :
  ns_wf (w_ns w) -> ns_link (w_ns w) ->
  exec_drop_user en w name = (w', o) -> good ex (SDropUser name) w w' o.
Proof.
  intros W L. unfold exec_drop_user.
  destruct (aget bseq name (n_users (w_ns w))) eqn:EU; [|intros H; inversion H; apply good_same; exact I].
  destruct (driver_commit _ _ w) as [w1 [|]] eqn:EC; [|intros H; inversion H; subst; eapply good_fail; eauto].
  apply commit_true in EC as [EI ->]. cbn [w_ns w_log with_ns]. intros H. inversion H; subst; clear H.
  split; [|cbn; auto]. eapply eff_commit; cbn [w_ns w_log with_ns]; eauto.
  - exact I.
  - cbn [apply_event]. rewrite EU. reflexivity.
  - apply ns_rel_refl.
  - apply wf_users; auto. apply (nodup_del bseq bseq_eq). apply W.
Qed.

Lemma exec_good se en w s w' o :
  stmt_nd s -> ns_wf (w_ns w) -> ns_link (w_ns w) ->
  exec_stmt order hash se en w s = (w', o) ->
  (failed_forced_drop s o /\ exists name ex, s = SDropSpace name true ex /\
     aget bseq name (n_spaces (w_ns w)) <> None /\
     w_ns w' = set_spaces (adel bseq name (n_spaces (w_ns w))) (w_ns w) /\ w_log w' = w_log w) \/
  good (no_env_null s /\ full (w_ns w)) s w w' o.
Proof.
  intros ND W L. unfold exec_stmt.
  destruct s as [name props nx|name props|name f exs|id fs props nx|id k|id f exs|name opts|name opts|name|];
    try (destruct (negb (se_root se)); [intros H; inversion H; right; apply good_same; exact I|]).
  - intros H. right. eapply create_space_good; eauto.
  - intros H. right. eapply alter_space_good; eauto.
  - intros H. apply (drop_space_good (no_env_null (SDropSpace name f exs) /\ full (w_ns w))) in H as [(H1 & H2)|H]; auto.
    left. split; auto. exists name, exs. split; auto. destruct f; [reflexivity|contradiction].
  - intros H. right. eapply create_model_good; eauto.
  - intros H. right. eapply alter_model_good; eauto.
  - intros H. right. eapply drop_model_good; eauto.
  - intros H. right. eapply create_user_good; eauto.
  - destruct (se_root se) eqn:ER; intros H; inversion H; right; [apply good_same; exact I|].
    revert H. destruct (user_password opts) as [p|]; [|intros H; inversion H; apply good_same; exact I].
    unfold exec_alter_user. destruct (aget bseq name (n_users (w_ns w))) eqn:EU; [|intros H; inversion H; apply good_same; exact I].
    destruct (driver_commit _ _ w) as [w1 [|]] eqn:EC; [|intros H; inversion H; subst; eapply good_fail; eauto].
    apply commit_true in EC as [EI ->]. cbn [w_ns w_log with_ns]. intros H. inversion H; subst; clear H.
    split; [|cbn; auto]. eapply eff_commit; cbn [w_ns w_log with_ns]; eauto.
    + cbn [apply_event]. rewrite EU. reflexivity.
    + apply ns_rel_refl.
    + apply wf_users; auto. apply (nodup_put bseq bseq_eq). apply W.
  - destruct (bseq (se_user se) name); [intros H; inversion H; right; apply good_same; exact I|].
    intros H. right. eapply drop_user_good; eauto.
  - intros H. inversion H. right. destruct (w_iffy w'); apply good_same; exact I.
Qed.

End ExecProofs.
