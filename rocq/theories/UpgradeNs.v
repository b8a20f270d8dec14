(** Upgrading the namespace: what is written is what is read back. *)
From Coq Require Import List NArith Bool Lia Permutation.
From Verif Require Import Bytes AMap DataModel CodecModel GnsCodecModel DictModel GnsModel GnsProofs RowModel BatchModel V1Model
  UpgradeModel UpgradeSpec.
Import ListNotations.
Local Open Scope N_scope.

Lemma aget_perm {K V} (eqb : K -> K -> bool) (ok : forall a b, eqb a b = true <-> a = b) k (l l' : list (K * V)) :
  NoDup (akeys l) -> Permutation l l' -> aget eqb k l = aget eqb k l'.
Proof.
  intros ND P. assert (ND' : NoDup (akeys l')) by (apply (Permutation_NoDup (l := akeys l)); [apply Permutation_map, P | exact ND]).
  destruct (aget eqb k l) as [v|] eqn:E.
  - symmetry. apply (in_aget _ ok); [exact ND'|]. eapply Permutation_in; [exact P|]. apply (aget_in _ ok). exact E.
  - destruct (aget eqb k l') as [v|] eqn:E'; [|reflexivity]. exfalso. apply (aget_in _ ok) in E'.
    apply Permutation_sym in P. pose proof (Permutation_in _ P E') as I. rewrite (in_aget _ ok _ _ _ ND I) in E. discriminate E.
Qed.

(** what holds of every namespace a log gives *)
Record ns_good (n : ns) : Prop := {
  ng_sp : NoDup (akeys (n_spaces n));
  ng_md : NoDup (akeys (n_models n));
  ng_us : NoDup (akeys (n_users n));
  ng_sm : forall k s, aget bseq k (n_spaces n) = Some s -> NoDup (sp_models s);
  ng_link : ns_link n
}.

Lemma ns_good_empty : ns_good ns_empty.
Proof. constructor; try constructor; try (intros; discriminate). apply ns_link_empty. apply ns_link_empty. Qed.

Lemma set_add_nd x l : NoDup l -> NoDup (set_add x l).
Proof.
  intros H. unfold set_add. destruct (set_has x l) eqn:E; [exact H|].
  apply NoDup_Add with (a := x) (l := l); [|split; [exact H|]].
  - rewrite <- (app_nil_r l) at 1. apply Add_app.
  - intros I. apply set_has_in in I. congruence.
Qed.

Lemma sm_put n k s : (forall k s, aget bseq k (n_spaces n) = Some s -> NoDup (sp_models s)) -> NoDup (sp_models s) ->
  forall k' s', aget bseq k' (aput bseq k s (n_spaces n)) = Some s' -> NoDup (sp_models s').
Proof.
  intros H1 H2 k' s' H. destruct (bseq k' k) eqn:E.
  - apply bseq_eq in E as ->. rewrite (aget_put_same bseq bseq_eq) in H. inversion H; subst. exact H2.
  - apply bseq_neq in E. rewrite (aget_put_other bseq bseq_eq) in H by exact E. eauto.
Qed.
Lemma sm_del n k : (forall k s, aget bseq k (n_spaces n) = Some s -> NoDup (sp_models s)) ->
  forall k' s', aget bseq k' (adel bseq k (n_spaces n)) = Some s' -> NoDup (sp_models s').
Proof.
  intros H1 k' s' H. destruct (bseq k' k) eqn:E.
  - apply bseq_eq in E as ->. rewrite (aget_del_same bseq) in H. discriminate H.
  - apply bseq_neq in E. rewrite (aget_del_other bseq bseq_eq) in H by exact E. eauto.
Qed.

Lemma apply_good n e n' : ns_good n -> apply_event n e = Some n' -> ns_good n'.
Proof.
  intros [G1 G2 G3 G4 G5] H. destruct e as [name sp|sid props|sid|sid name lay|mid fs|mid ks|mid fs|mid|u h|u h|u]; cbn [apply_event] in H.
  - destruct (aget bseq name (n_spaces n)) eqn:E; [discriminate H|]. inversion H; subst; clear H.
    constructor; cbn [set_spaces n_spaces n_models n_users]; auto.
    + apply (nodup_put _ bseq_eq), G1.
    + apply sm_put; [exact G4 | constructor].
    + apply link_new_space; auto.
  - destruct (aget bseq (sid_name sid) (n_spaces n)) as [s|] eqn:E; [|discriminate H].
    destruct (merge_metadata (sp_props s) props) as [[d|]|]; try discriminate H. inversion H; subst; clear H.
    constructor; cbn [set_spaces n_spaces n_models n_users]; auto.
    + apply (nodup_put _ bseq_eq), G1.
    + apply sm_put; [exact G4|]. cbn [sp_models]. eauto.
    + eapply link_put_space; eauto.
  - destruct (aget bseq (sid_name sid) (n_spaces n)) as [s|] eqn:E; [|discriminate H].
    destruct (sp_uuid s =? sid_uuid sid); [|discriminate H]. inversion H; subst; clear H.
    fold (del_models (sid_name sid) (sp_models s) (n_models n)).
    constructor; cbn [set_spaces set_models n_spaces n_models n_users]; auto.
    + apply (nodup_del _ bseq_eq), G1.
    + apply del_models_nodup, G2.
    + apply sm_del. exact G4.
    + apply link_drop_space; auto.
  - destruct (aget bseq (sid_name sid) (n_spaces n)) as [s|] eqn:E; [|discriminate H].
    destruct (set_has name (sp_models s)); [discriminate H|].
    destruct (aget ent_eqb (sid_name sid, name) (n_models n)); [discriminate H|]. inversion H; subst; clear H.
    constructor; cbn [set_spaces set_models n_spaces n_models n_users]; auto.
    + apply (nodup_put _ bseq_eq), G1.
    + apply (nodup_put _ ent_eqb_eq), G2.
    + apply sm_put; [exact G4|]. cbn [sp_models]. apply set_add_nd. eauto.
    + apply (link_create_model n (sid_name sid, name)); auto.
  - unfold with_model_mut, with_space in H. destruct (aget bseq _ (n_spaces n)) as [s|]; [|discriminate H].
    destruct (sp_uuid s =? _); [|discriminate H]. destruct (aget ent_eqb _ (n_models n)) as [m|] eqn:E; [|discriminate H].
    destruct (_ =? _); [|discriminate H]. destruct (replay_add fs m); [|discriminate H]. inversion H; subst; clear H.
    constructor; cbn [set_models n_spaces n_models n_users]; auto; [apply (nodup_put _ ent_eqb_eq), G2 | eapply link_put_model; eauto].
  - unfold with_model_mut, with_space in H. destruct (aget bseq _ (n_spaces n)) as [s|]; [|discriminate H].
    destruct (sp_uuid s =? _); [|discriminate H]. destruct (aget ent_eqb _ (n_models n)) as [m|] eqn:E; [|discriminate H].
    destruct (_ =? _); [|discriminate H]. destruct (replay_rem ks m); [|discriminate H]. inversion H; subst; clear H.
    constructor; cbn [set_models n_spaces n_models n_users]; auto; [apply (nodup_put _ ent_eqb_eq), G2 | eapply link_put_model; eauto].
  - unfold with_model_mut, with_space in H. destruct (aget bseq _ (n_spaces n)) as [s|]; [|discriminate H].
    destruct (sp_uuid s =? _); [|discriminate H]. destruct (aget ent_eqb _ (n_models n)) as [m|] eqn:E; [|discriminate H].
    destruct (_ =? _); [|discriminate H]. destruct (replay_upd fs m); [|discriminate H]. inversion H; subst; clear H.
    constructor; cbn [set_models n_spaces n_models n_users]; auto; [apply (nodup_put _ ent_eqb_eq), G2 | eapply link_put_model; eauto].
  - unfold with_space in H. destruct (aget bseq _ (n_spaces n)) as [s|] eqn:ES; [|discriminate H].
    destruct (sp_uuid s =? _); [|discriminate H]. destruct (negb _); [discriminate H|].
    destruct (aget ent_eqb _ (n_models n)) as [m|] eqn:E; [|discriminate H].
    destruct (_ =? _); [|discriminate H]. inversion H; subst; clear H.
    constructor; cbn [set_spaces set_models n_spaces n_models n_users]; auto.
    + apply (nodup_put _ bseq_eq), G1.
    + apply (nodup_del _ ent_eqb_eq), G2.
    + apply sm_put; [exact G4|]. cbn [sp_models]. unfold set_del. apply NoDup_filter. eauto.
    + apply (link_drop_model n (sid_name (mid_space mid), mid_name mid)); auto.
  - destruct (aget bseq u (n_users n)); [discriminate H|]. inversion H; subst; clear H.
    constructor; cbn [set_users n_spaces n_models n_users]; auto. apply (nodup_put _ bseq_eq), G3.
  - destruct (aget bseq u (n_users n)); [|discriminate H]. inversion H; subst; clear H.
    constructor; cbn [set_users n_spaces n_models n_users]; auto. apply (nodup_put _ bseq_eq), G3.
  - destruct (aget bseq u (n_users n)); [|discriminate H]. inversion H; subst; clear H.
    constructor; cbn [set_users n_spaces n_models n_users]; auto. apply (nodup_del _ bseq_eq), G3.
Qed.

Lemma replay_good l : forall n n', ns_good n -> replay n l = Some n' -> ns_good n'.
Proof.
  induction l as [|e l IH]; intros n n' G H; cbn [replay] in H; [congruence|].
  destruct (apply_event n e) as [n1|] eqn:E; [|discriminate H]. eapply IH; [eapply apply_good; eauto | exact H].
Qed.

(** accounts *)
Lemma add_users_spec us : forall n, ns_good n -> ns_good (add_users us n) /\
  n_spaces (add_users us n) = n_spaces n /\ n_models (add_users us n) = n_models n /\
  forall u, aget bseq u (n_users (add_users us n)) =
    match aget bseq u (n_users n) with Some h => Some h | None => aget bseq u us end.
Proof.
  induction us as [|[x h] us IH]; intros n G.
  { unfold add_users. cbn [fold_left aget]. split; [exact G|]. split; [reflexivity|]. split; [reflexivity|].
    intros u. destruct (aget bseq u (n_users n)); reflexivity. }
  unfold add_users in *. cbn [fold_left fst snd]. destruct (aget bseq x (n_users n)) as [h0|] eqn:E.
  - destruct (IH n G) as (I1 & I2 & I3 & I4). split; [exact I1|]. split; [exact I2|]. split; [exact I3|]. intros u. rewrite I4. cbn [aget].
    destruct (aget bseq u (n_users n)) eqn:EU; [reflexivity|]. destruct (bseq u x) eqn:EQ; [|reflexivity].
    apply bseq_eq in EQ. subst. congruence.
  - assert (G' : ns_good (set_users (aput bseq x h (n_users n)) n)).
    { destruct G. constructor; cbn [set_users n_spaces n_models n_users]; auto. apply (nodup_put _ bseq_eq). assumption. }
    destruct (IH _ G') as (I1 & I2 & I3 & I4). split; [exact I1|]. split; [exact I2|]. split; [exact I3|]. intros u. rewrite I4.
    cbn [set_users n_users aget]. destruct (bseq u x) eqn:EQ.
    + apply bseq_eq in EQ. subst. rewrite (aget_put_same _ bseq_eq), E. reflexivity.
    + apply bseq_neq in EQ. rewrite (aget_put_other _ bseq_eq) by exact EQ. reflexivity.
Qed.

(** ** Replaying what [recreate] writes *)
Definition bare (s : mspace) : mspace := mk_mspace (sp_uuid s) [] (sp_props s).

Lemma replay_spaces sps : forall n, NoDup (akeys sps) -> (forall k, In k (akeys sps) -> aget bseq k (n_spaces n) = None) ->
  exists n1, replay n (map ev_space sps) = Some n1 /\ n_models n1 = n_models n /\ n_users n1 = n_users n /\
    forall k, aget bseq k (n_spaces n1) = match aget bseq k (n_spaces n) with Some s => Some s | None => option_map bare (aget bseq k sps) end.
Proof.
  induction sps as [|[x s] sps IH]; intros n ND F.
  { exists n. cbn. repeat (split; [reflexivity|]). intros k. destruct (aget bseq k (n_spaces n)); reflexivity. }
  change (akeys ((x, s) :: sps)) with (x :: akeys sps) in *. inversion ND as [|? ? NI ND']; subst.
  cbn [map replay ev_space apply_event fst snd]. rewrite (F x (or_introl eq_refl)).
  destruct (IH (set_spaces (aput bseq x (bare s) (n_spaces n)) n) ND') as (n1 & E & M & U & S).
  { intros k I. cbn [set_spaces n_spaces]. rewrite (aget_put_other _ bseq_eq); [apply F; right; exact I|]. intros ->. contradiction. }
  exists n1. split; [exact E|]. split; [exact M|]. split; [exact U|]. intros k. rewrite S. cbn [set_spaces n_spaces aget].
  destruct (bseq k x) eqn:EQ.
  - apply bseq_eq in EQ. subst. rewrite (aget_put_same _ bseq_eq), (F x (or_introl eq_refl)). reflexivity.
  - apply bseq_neq in EQ. rewrite (aget_put_other _ bseq_eq) by exact EQ. reflexivity.
Qed.

Definition grown (n : ns) (mds : list (ent * mmodel)) (k : bytes) (a b : option mspace) : Prop :=
  match a, b with
  | None, None => True
  | Some x, Some y => sp_uuid x = sp_uuid y /\ sp_props x = sp_props y /\
      forall m, In m (sp_models y) <-> In m (sp_models x) \/ In (k, m) (akeys mds)
  | _, _ => False
  end.

Lemma replay_models n0 mds : forall n, NoDup (akeys mds) ->
  (forall id, In id (akeys mds) -> aget ent_eqb id (n_models n) = None /\
     exists s, aget bseq (fst id) (n_spaces n) = Some s /\ ~ In (snd id) (sp_models s)) ->
  exists n1, replay n (map (ev_model n0) mds) = Some n1 /\ n_users n1 = n_users n /\
    (forall k, grown n mds k (aget bseq k (n_spaces n)) (aget bseq k (n_spaces n1))) /\
    (forall id, aget ent_eqb id (n_models n1) =
       match aget ent_eqb id (n_models n) with Some m => Some m | None => option_map (fun m => mk_mmodel (md_lay m) 0) (aget ent_eqb id mds) end).
Proof.
  induction mds as [|[[sp x] m] mds IH]; intros n ND F.
  { exists n. cbn [map replay]. split; [reflexivity|]. split; [reflexivity|]. split.
    - intros k. unfold grown. destruct (aget bseq k (n_spaces n)); [|exact I]. split; [reflexivity|]. split; [reflexivity|]. intros y. cbn. tauto.
    - intros id. cbn. destruct (aget ent_eqb id (n_models n)); reflexivity. }
  change (akeys (((sp, x), m) :: mds)) with ((sp, x) :: akeys mds) in *. inversion ND as [|? ? NI ND']; subst.
  destruct (F (sp, x) (or_introl eq_refl)) as (F1 & s & F2 & F3). cbn [fst snd] in F2, F3.
  cbn [map replay ev_model apply_event fst snd sid_name]. rewrite F2, F1.
  destruct (set_has x (sp_models s)) eqn:SH; [apply set_has_in in SH; contradiction|].
  match goal with |- context [replay ?m _] => set (n2 := m) end.
  destruct (IH n2 ND') as (n1 & E & U & S & M).
  { intros [a b] I. cbn [fst snd]. destruct (F (a, b) (or_intror I)) as (A1 & s1 & A2 & A3). cbn [fst snd] in *. split.
    - unfold n2. cbn [set_spaces set_models n_models]. rewrite (aget_put_other _ ent_eqb_eq); [exact A1|]. intros Q. rewrite Q in I. contradiction.
    - unfold n2. cbn [set_spaces set_models n_spaces]. destruct (bseq a sp) eqn:EA.
      + apply bseq_eq in EA. subst a. rewrite (aget_put_same _ bseq_eq). eexists. split; [reflexivity|]. cbn [sp_models].
        intros Q. apply set_add_in in Q as [-> | Q]; [contradiction|]. rewrite F2 in A2. inversion A2; subst. contradiction.
      + apply bseq_neq in EA. rewrite (aget_put_other _ bseq_eq) by exact EA. eauto. }
  exists n1. split; [exact E|]. split; [exact U|]. split.
  - intros k. specialize (S k). unfold n2 in S. cbn [set_spaces set_models n_spaces] in S. unfold grown in *. destruct (bseq k sp) eqn:EK.
    + apply bseq_eq in EK. subst k. rewrite (aget_put_same _ bseq_eq) in S. rewrite F2.
      destruct (aget bseq sp (n_spaces n1)) as [y|]; [|destruct S]. cbn [sp_uuid sp_props sp_models] in S. destruct S as (S1 & S2 & S3).
      split; [exact S1|]. split; [exact S2|]. intros z. rewrite S3, set_add_in. cbn [In akeys map fst]. split.
      * intros [[-> | H] | H]; auto.
      * intros [H | [H | H]]; auto. inversion H; subst. auto.
    + apply bseq_neq in EK. rewrite (aget_put_other _ bseq_eq) in S by exact EK.
      destruct (aget bseq k (n_spaces n)) as [s1|], (aget bseq k (n_spaces n1)) as [y|]; try exact S. destruct S as (S1 & S2 & S3).
      split; [exact S1|]. split; [exact S2|]. intros z. rewrite S3. cbn [In akeys map fst]. split; [tauto|].
      intros [H | [H | H]]; auto. inversion H; subst. contradiction.
  - intros id. rewrite M. unfold n2. cbn [set_spaces set_models n_models aget]. destruct (ent_eqb id (sp, x)) eqn:EI.
    + apply ent_eqb_eq in EI. subst id. rewrite (aget_put_same _ ent_eqb_eq), F1. reflexivity.
    + assert (NE : id <> (sp, x)) by (intros Q; apply ent_eqb_eq in Q; congruence).
      rewrite (aget_put_other _ ent_eqb_eq) by exact NE. reflexivity.
Qed.

Lemma replay_users us : forall n, NoDup (akeys us) -> (forall u, In u (akeys us) -> aget bseq u (n_users n) = None) ->
  exists n1, replay n (map ev_user us) = Some n1 /\ n_spaces n1 = n_spaces n /\ n_models n1 = n_models n /\
    forall u, aget bseq u (n_users n1) = match aget bseq u (n_users n) with Some h => Some h | None => aget bseq u us end.
Proof.
  induction us as [|[x h] us IH]; intros n ND F.
  { exists n. cbn. repeat (split; [reflexivity|]). intros u. destruct (aget bseq u (n_users n)); reflexivity. }
  change (akeys ((x, h) :: us)) with (x :: akeys us) in *. inversion ND as [|? ? NI ND']; subst.
  cbn [map replay ev_user apply_event fst snd]. rewrite (F x (or_introl eq_refl)).
  destruct (IH (set_users (aput bseq x h (n_users n)) n) ND') as (n1 & E & S & M & U).
  { intros u I. cbn [set_users n_users]. rewrite (aget_put_other _ bseq_eq); [apply F; right; exact I|]. intros ->. contradiction. }
  exists n1. split; [exact E|]. split; [exact S|]. split; [exact M|]. intros u. rewrite U. cbn [set_users n_users aget].
  destruct (bseq u x) eqn:EQ.
  - apply bseq_eq in EQ. subst. rewrite (aget_put_same _ bseq_eq), (F x (or_introl eq_refl)). reflexivity.
  - apply bseq_neq in EQ. rewrite (aget_put_other _ bseq_eq) by exact EQ. reflexivity.
Qed.

Lemma perm_nd {K V} (l l' : list (K * V)) : Permutation l l' -> NoDup (akeys l') -> NoDup (akeys l).
Proof. intros P. apply Permutation_NoDup. apply Permutation_map, Permutation_sym, P. Qed.

(** for every order of the three maps *)
Theorem recreate_replayed n sps mds us : ns_good n -> Permutation sps (n_spaces n) -> Permutation mds (n_models n) ->
  Permutation us (n_users n) ->
  exists n', replay ns_empty (recreate_events n sps mds us) = Some n' /\ same_ns n n' /\ ns_good n' /\
    (forall id m, aget ent_eqb id (n_models n') = Some m -> md_ver m = 0).
Proof.
  intros G P1 P2 P3. destruct G as [G1 G2 G3 G4 G5].
  pose proof (perm_nd _ _ P1 G1) as N1. pose proof (perm_nd _ _ P2 G2) as N2. pose proof (perm_nd _ _ P3 G3) as N3.
  unfold recreate_events.
  destruct (replay_spaces sps ns_empty N1) as (a & A1 & A2 & A3 & A4); [reflexivity|].
  destruct (replay_models n mds a N2) as (b & B1 & B2 & B3 & B4).
  { intros id I. rewrite A2. split; [reflexivity|]. rewrite A4. cbn [ns_empty n_spaces aget].
    rewrite (aget_perm _ bseq_eq _ _ _ N1 P1).
    assert (X : exists y, aget ent_eqb id (n_models n) = Some y).
    { rewrite <- (aget_perm _ ent_eqb_eq _ _ _ N2 P2). destruct (aget ent_eqb id mds) as [y|] eqn:E; [eauto|].
      apply (aget_none _ ent_eqb_eq) in E. contradiction. }
    destruct id as [sp x]. apply G5 in X as (s & X & _). cbn [fst snd]. rewrite X. cbn [option_map]. eexists. split; [reflexivity|]. intros []. }
  destruct (replay_users us b N3) as (c & C1 & C2 & C3 & C4); [intros u _; rewrite B2, A3; reflexivity|].
  assert (RP : replay ns_empty (map ev_space sps ++ map (ev_model n) mds ++ map ev_user us) = Some c).
  { rewrite replay_app, A1, replay_app, B1. exact C1. }
  exists c. split; [exact RP|]. split; [|split].
  - split; [|split].
    + intros k. rewrite C2. specialize (B3 k). rewrite A4 in B3. cbn [ns_empty n_spaces aget] in B3. rewrite (aget_perm _ bseq_eq _ _ _ N1 P1) in B3.
      unfold grown, same_space in *. destruct (aget bseq k (n_spaces n)) as [s|] eqn:E; cbn [option_map] in B3.
      * destruct (aget bseq k (n_spaces b)) as [y|]; [|destruct B3]. destruct B3 as (S1 & S2 & S3). split; [exact S1|]. split; [exact S2|].
        intros m. rewrite S3. cbn [bare sp_models In].
        transitivity (exists x, aget ent_eqb (k, m) (n_models n) = Some x).
        { rewrite (G5 k m). rewrite E. split; [eauto|]. intros (s0 & Q & I). congruence. }
        rewrite <- (aget_perm _ ent_eqb_eq _ _ _ N2 P2). split.
        -- intros [x H]. right. exact (aget_some_key _ ent_eqb_eq _ _ _ H).
        -- intros [[]|H]. destruct (aget ent_eqb (k, m) mds) as [y0|] eqn:E0; [eauto|]. apply (aget_none _ ent_eqb_eq) in E0. contradiction.
      * destruct (aget bseq k (n_spaces b)); [destruct B3 | exact I].
    + intros id. rewrite C3, B4, A2. cbn [ns_empty n_models aget]. rewrite (aget_perm _ ent_eqb_eq _ _ _ N2 P2).
      destruct (aget ent_eqb id (n_models n)); reflexivity.
    + intros u. rewrite C4, B2, A3. cbn [ns_empty n_users aget]. symmetry. apply (aget_perm _ bseq_eq _ _ _ N3 P3).
  - eapply replay_good; [apply ns_good_empty | exact RP].
  - intros id m H. rewrite C3, B4, A2 in H. cbn [ns_empty n_models aget] in H. destruct (aget ent_eqb id mds); inversion H; reflexivity.
Qed.
