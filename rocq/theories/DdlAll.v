(** The schema and system statements: what each parser accepts, and that it stays inside the statement. *)
From Coq Require Import Strings.String List NArith Bool Arith Lia.
From Verif Require Import Bytes DataModel CodecModel TypeModel GnsModel RowModel LexModel LexSpec LexProofs
  ParseModel ParseSpec ParseProofs DdlModel DdlSpec DdlProofs DdlStmt.
Import ListNotations.

Lemma hardened_mk {A} (r : pres (A * pst)) a o : r = POk (a, mk_pst nil o) -> hardened r = POk a.
Proof. intros ->. reflexivity. Qed.

Lemma sig_nx_true s : sig_nx s = true <-> exists r, rest s = nx_toks true ++ r.
Proof.
  unfold sig_nx. split.
  - destruct (rest s) as [|a [|b [|c r]]]; try discriminate. intros H. apply andb_true_iff in H. destruct H as [H C].
    apply andb_true_iff in H. destruct H as [A B]. apply is_misc_eq in A, B. subst.
    destruct c as [|[[]|]| |]; try discriminate C. exists r. reflexivity.
  - intros (r & ->). reflexivity.
Qed.
(** reading IF NOT EXISTS *)
Definition skip_nx (s : pst) : pst := if sig_nx s then ahead 3 s else s.
Lemma skip_nx_inv s : rest s = nx_toks (sig_nx s) ++ rest (skip_nx s) /\ okay (skip_nx s) = okay s.
Proof.
  unfold skip_nx. destruct (sig_nx s) eqn:N; [|auto]. apply sig_nx_true in N. destruct N as (r & N). cbn [ahead rest okay].
  rewrite N. auto.
Qed.
Definition no_if (t : list token) : Prop := match t with a :: _ => is_misc KmIf a = false | nil => True end.
Lemma skip_nx_ok nx t o : no_if t -> sig_nx (mk_pst (nx_toks nx ++ t) o) = nx /\ skip_nx (mk_pst (nx_toks nx ++ t) o) = mk_pst t o.
Proof.
  intros N. unfold skip_nx. destruct nx; [split; reflexivity|]. cbn [nx_toks app].
  assert (E : sig_nx (mk_pst t o) = false).
  { unfold sig_nx. cbn [rest]. destruct t as [|a [|b [|c r]]]; try reflexivity. cbn in N. rewrite N. reflexivity. }
  rewrite E. auto.
Qed.

(** properties after WITH *)
Lemma with_inv d s e s' : fold_dict DsOb d s = POk (e, s') -> okay s' = true ->
  okay s = true /\ exists x t, e = d ++ x /\ rest s = TSym SOpenBrace :: t /\ dbody t x (rest s') /\ (NoDup (keys d) -> NoDup (keys e)).
Proof.
  intros H O. apply fold_dict_inv in H; [|exact O]. destruct H as (OS & x & -> & ND & t & R & D). split; [exact OS|]. exists x, t. auto.
Qed.
Lemma with_ok t x r : dbody t x r -> NoDup (keys x) -> fold_dict DsOb nil (mk_pst (TSym SOpenBrace :: t) true) = POk (x, mk_pst r true).
Proof. intros D ND. rewrite (fold_dict_ok DsOb nil _ x r); [reflexivity | exists t; auto | exact ND]. Qed.

(* ------------------------------------------------------------------ *)
(** * CREATE SPACE *)

Lemma create_space_iff ts st : create_space_of ts = POk st <-> wf_create_space ts st.
Proof.
  split.
  - intros H. apply hardened_ok in H. destruct H as (s' & H & R'). unfold create_space, remaining in H.
    destruct (length (rest (start ts)) <? 1); [discriminate H|]. fold (skip_nx (start ts)) in H.
    destruct (skip_nx_inv (start ts)) as [E OK]. cbn [rest start okay] in E, OK. set (nx := sig_nx (start ts)) in *.
    set (s := skip_nx (start ts)) in *. rewrite E. destruct (rest s) as [|nm r]; [discriminate H|]. rewrite OK in H.
    apply pbind_ok in H. destruct H as ([d s2] & F & H). destruct (okay s2) eqn:O2; [|discriminate H].
    destruct nm as [| |k|]; try discriminate H. injection H as <- <-. constructor.
    cbn [is_ident] in F. rewrite need_mk in F. cbn [andb] in F.
    destruct (next_is (is_misc KmWith) (mk_pst r true)) eqn:W.
    + apply next_misc in W. destruct W as (r1 & W). cbn [rest] in W. subst r. cbn [orb] in F. rewrite need_mk in F.
      cbn [andb ahead_if] in F. unfold kmis in F. rewrite ahead1 in F. cbn [okay andb] in F.
      apply with_inv in F; [|exact O2]. destruct F as (_ & x & t & -> & R & D & ND). cbn [rest app] in *. rewrite R' in D. subst r1.
      constructor; [exact D | apply ND; constructor].
    + cbn [orb ahead_if andb] in F. injection F as <- <-. cbn [rest need okay andb] in *. subst r. constructor.
  - intros W. destruct W as [nx k t d W]. unfold create_space_of, create_space, remaining, start.
    assert (L : length (nx_toks nx ++ TId k :: t) <? 1 = false) by (rewrite app_length; apply Nat.ltb_ge; cbn; lia).
    cbn [rest]. rewrite L. destruct (skip_nx_ok nx (TId k :: t) true) as [E1 E2]; [reflexivity|]. unfold skip_nx in E2.
    rewrite E2, E1. cbn [rest okay is_ident]. rewrite need_mk. cbn [andb].
    destruct W as [|t d D ND]; [reflexivity|]. cbn [next_is rest kmis is_misc orb ahead_if]. rewrite need_mk. cbn [andb]. rewrite ahead1. cbn [okay andb].
    unfold kmis. rewrite ?ahead1. rewrite (with_ok _ _ _ D ND). reflexivity.
Qed.
Lemma create_space_sound ts : sound (create_space_of ts).
Proof.
  apply hardened_sound. unfold create_space. destruct (remaining (start ts) <? 1); [right; eexists; reflexivity|].
  fold (skip_nx (start ts)). set (s := skip_nx (start ts)). destruct (rest s) as [|nm r]; [right; eexists; reflexivity|].
  set (s1 := need (is_ident nm) (mk_pst r (okay s))). set (w := next_is (is_misc KmWith) s1).
  set (s2 := ahead_if w _).
  assert (ID : okay s2 = true -> is_ident nm = true).
  { subst s2. intros O. assert (O1 : okay s1 = true).
    { destruct w; cbn in O; [|apply andb_true_iff in O; tauto]. apply andb_true_iff in O. tauto. }
    unfold s1 in O1. apply need_ok in O1. tauto. }
  assert (X : exists d s3, (if w && okay s2 then fold_dict DsOb nil s2 else POk (nil, s2)) = POk (d, s3) /\ (okay s3 = true -> okay s2 = true)).
  { destruct (w && okay s2); [|do 2 eexists; split; [reflexivity | auto]]. destruct (fold_dict_total DsOb nil s2) as (d & s3 & E & _ & O). eauto. }
  destruct X as (d & s3 & -> & O). cbn [pbind]. destruct (okay s3); [|right; eexists; reflexivity].
  specialize (ID (O eq_refl)). apply is_ident_eq in ID. destruct ID as (k & ->). left. eexists. reflexivity.
Qed.

(* ------------------------------------------------------------------ *)
(** * CREATE MODEL *)

Lemma items_fdecl_len t l r : items fdecl t l r -> 4 + length r <= length t.
Proof.
  assert (F : forall t f r, fdecl t f r -> 3 + length r <= length t).
  { intros x f y [null prim k t0 ls r0 B L]. apply lyr_len in L. rewrite app_length. cbn [length]. lia. }
  induction 1 as [t f r X|t f t1 l r X I IH]; apply F in X; cbn [length] in X; lia.
Qed.

Lemma create_model_iff ts st : create_model_of ts = POk st <-> 10 <= length ts /\ wf_create_model ts st.
Proof.
  split.
  - intros H. apply hardened_ok in H. destruct H as (s' & H & R'). unfold create_model, remaining in H.
    destruct (length (rest (start ts)) <? 10) eqn:L; [discriminate H|]. apply Nat.ltb_ge in L. split; [exact L|].
    fold (skip_nx (start ts)) in H.
    destruct (skip_nx_inv (start ts)) as [E OK]. cbn [rest start okay] in E, OK. set (nx := sig_nx (start ts)) in *.
    set (s := skip_nx (start ts)) in *. rewrite E. clearbody s nx.
    apply pbind_ok in H. destruct H as ([e s1] & EB & H). apply pbind_ok in H. destruct H as (op & C & H).
    apply cur_is_ok in C. destruct C as (x & r1 & R1 & OP).
    apply pbind_ok in H. destruct H as ([[fs stop] s2] & DL & H). apply pbind_ok in H. destruct H as ([props s3] & W & H).
    apply finish_ok in H. destruct H as (O3 & -> & en & -> & ->).
    apply entity_inv in EB. destruct EB as (_ & _ & en' & N & RS). inversion N as [a b|a b X]; subst; [|discriminate X].
    set (sl := ahead 1 (need (is_sym SOpenParen x) s1)) in *.
    assert (O2 : okay (need stop s2) = true /\ with_props (rest (need stop s2)) props).
    { destruct (next_is (is_misc KmWith) (need stop s2)) eqn:NW.
      - apply next_misc in NW. destruct NW as (r2 & NW). apply with_inv in W; [|exact O3]. destruct W as (O2 & y & t & -> & R & D & ND).
        split; [exact O2|]. cbn [ahead rest] in R. rewrite NW in *. cbn [skipn] in R. subst r2. rewrite R' in D. cbn [app].
        constructor; [exact D | apply ND; constructor].
      - injection W as <- <-. split; [exact O3|]. rewrite R'. constructor. }
    destruct O2 as [O2 WP]. apply need_ok in O2. destruct O2 as [O2 ->].
    apply decl_loop_inv in DL; [|exact O2]. destruct DL as (OL & l & -> & I). unfold sl in OL, I. cbn [ahead okay need rest] in OL, I.
    apply andb_true_iff in OL. destruct OL as [_ OP]. apply is_sym_eq in OP. subst x. rewrite R1 in *. cbn [skipn] in I.
    cbn [app]. rewrite RS. apply (wcm nx (a, b) r1 l (rest s2) props I WP).
  - intros [L W]. destruct W as [nx e t fs t1 d I W]. unfold create_model_of, create_model, remaining, start. cbn [rest].
    assert (L' : length (nx_toks nx ++ full e ++ TSym SOpenParen :: t) <? 10 = false) by (apply Nat.ltb_ge; exact L). rewrite L'.
    destruct (skip_nx_ok nx (full e ++ TSym SOpenParen :: t) true) as [E1 E2]; [reflexivity|]. unfold skip_nx in E2. rewrite E2, E1.
    destruct e as [a b]. cbn [full fst snd app].
    change (entity_buffered None (mk_pst (TId a :: TSym SPeriod :: TId b :: TSym SOpenParen :: t) true)) with
      (POk (Some (a, b), mk_pst (TSym SOpenParen :: t) true)). cbn [pbind cur_is rest is_sym]. rewrite need_mk, ahead1. cbn [andb].
    rewrite (decl_loop_ok _ _ _ I) by (cbn; lia). cbn [pbind app]. rewrite need_mk. cbn [andb].
    destruct W as [|t1 d D ND]; [reflexivity|]. cbn [next_is rest kmis is_misc]. rewrite ahead1. rewrite (with_ok _ _ _ D ND). reflexivity.
Qed.
(** the statement is left exactly when it ends inside a column *)
Definition cut_create_model (ts : list token) : Prop :=
  10 <= length ts /\ exists nx e t, ts = nx_toks nx ++ full e ++ TSym SOpenParen :: t /\ cut_decls t.
Lemma create_model_class ts : (sound (create_model_of ts) \/ create_model_of ts = PPanic) /\
  (create_model_of ts = PPanic <-> cut_create_model ts).
Proof.
  assert (BACK : cut_create_model ts -> create_model_of ts = PPanic).
  { intros (L & nx & e & t & -> & l & r & P & C). unfold create_model_of, create_model, remaining, start. cbn [rest].
    assert (L' : length (nx_toks nx ++ full e ++ TSym SOpenParen :: t) <? 10 = false) by (apply Nat.ltb_ge; exact L). rewrite L'.
    destruct (skip_nx_ok nx (full e ++ TSym SOpenParen :: t) true) as [E1 E2]; [reflexivity|]. unfold skip_nx in E2. rewrite E2, E1.
    destruct e as [a b]. cbn [full fst snd app].
    change (entity_buffered None (mk_pst (TId a :: TSym SPeriod :: TId b :: TSym SOpenParen :: t) true)) with
      (POk (Some (a, b), mk_pst (TSym SOpenParen :: t) true)). cbn [pbind cur_is rest is_sym]. rewrite need_mk, ahead1. cbn [andb].
    rewrite (decl_loop_cut _ _ _ P C) by (cbn; lia). reflexivity. }
  enough (X : sound (create_model_of ts) \/ (create_model_of ts = PPanic /\ cut_create_model ts)).
  { split; [tauto|]. split; [|exact BACK]. intros H. destruct X as [[[a X]|[e X]]|[_ X]]; [congruence | congruence | exact X]. }
  unfold create_model_of. destruct (remaining (start ts) <? 10) eqn:L.
  { left. unfold create_model. rewrite L. right. eexists. reflexivity. }
  enough (X : sound (create_model (start ts)) \/ (create_model (start ts) = PPanic /\ cut_create_model ts)).
  { destruct X as [X|[X C]]; [left; apply hardened_sound; exact X | right; split; [rewrite X; reflexivity | exact C]]. }
  unfold create_model. rewrite L. apply Nat.ltb_ge in L. unfold remaining in L. cbn [rest start] in L. fold (skip_nx (start ts)).
  destruct (skip_nx_inv (start ts)) as [E OK]. cbn [rest start okay] in E, OK. set (nx := sig_nx (start ts)) in *.
  set (s := skip_nx (start ts)) in *.
  assert (LS : 7 <= length (rest s)).
  { rewrite E in L. rewrite app_length in L. destruct nx; cbn in L; lia. }
  clearbody s nx. destruct (entity_total' None s ltac:(lia)) as (e & s1 & EB & L1 & EN). rewrite EB. cbn [pbind].
  unfold cur_is. destruct (rest s1) as [|x r1] eqn:R1; [cbn in L1; lia|]. cbn [pbind].
  set (sl := ahead 1 (need (is_sym SOpenParen x) s1)).
  destruct (decl_loop_class (S (remaining sl)) nil false sl ltac:(unfold remaining; lia)) as [(fs & stop & s2 & DL & _)|[[er DL]|(DL & _ & OL & C)]].
  - rewrite DL. cbn [pbind]. left.
    assert (O2 : okay s2 = true -> okay s1 = true).
    { intros O. clear -DL O. assert (G : okay sl = true).
      { destruct (going sl) eqn:G; [apply going_true in G; tauto|]. cbn [decl_loop] in DL. rewrite G in DL. cbn in DL. injection DL as _ _ <-. exact O. }
      unfold sl in G. cbn in G. apply andb_true_iff in G. tauto. }
    assert (X : exists d s3, (if next_is (is_misc KmWith) (need stop s2) then fold_dict DsOb nil (ahead 1 (need stop s2)) else POk (nil, need stop s2)) = POk (d, s3)
       /\ (okay s3 = true -> okay s2 = true)).
    { destruct (next_is (is_misc KmWith) (need stop s2)).
      - destruct (fold_dict_total DsOb nil (ahead 1 (need stop s2))) as (d & s3 & X & _ & O). exists d, s3. split; [exact X|].
        intros O3. apply O in O3. cbn in O3. apply andb_true_iff in O3. tauto.
      - exists nil, (need stop s2). split; [reflexivity|]. intros O3. apply need_ok in O3. tauto. }
    destruct X as (d & s3 & -> & O3). cbn [pbind].
    destruct (finish_total e s3 (fun e => SCreateModel e fs d nx)) as [[y Y]|[y Y]].
    + intros EN0. specialize (EN EN0). destruct (okay s3) eqn:O; [|reflexivity]. specialize (O2 (O3 eq_refl)). congruence.
    + left. eauto.
    + right. eauto.
  - rewrite DL. left. right. eexists. reflexivity.
  - rewrite DL. right. split; [reflexivity|]. split; [exact L|].
    unfold sl in OL, C. cbn [ahead okay need rest] in OL, C. apply andb_true_iff in OL. destruct OL as [O1 OP]. apply is_sym_eq in OP. subst x.
    rewrite R1 in *. cbn [skipn] in C. apply entity_inv in EB. destruct EB as [_ EB]. destruct e as [e|]; [|subst s1; discriminate O1].
    destruct EB as (_ & en & N & RS). inversion N as [a b|a b X]; subst; [|discriminate X]. exists nx, (a, b), r1. split; [|exact C].
    rewrite RS, R1. reflexivity.
Qed.

(* ------------------------------------------------------------------ *)
(** * ALTER *)

Lemma alter_space_iff ts st : alter_space_of ts = POk st <-> wf_alter_space ts st.
Proof.
  split.
  - intros H. apply hardened_ok in H. destruct H as (s' & H & R'). unfold alter_space, remaining in H. cbn [rest start] in H.
    destruct ts as [|a [|b [|c t]]]; try discriminate H. destruct (length (a :: b :: c :: t) <=? 3); [discriminate H|].
    unfold fw_read in H. cbn [pbind rest okay start] in H. rewrite need_mk in H. cbn [cur_is rest pbind] in H. rewrite need_mk, ahead1 in H.
    cbn [cur_is rest pbind] in H. rewrite need_mk, ahead1 in H. cbn [okay andb] in H.
    destruct (is_ident a && is_misc KmWith b && is_sym SOpenBrace c) eqn:O; cbn [negb] in H; [|discriminate H].
    destruct a as [| |k|]; try discriminate O. cbn [is_ident andb] in O. apply andb_true_iff in O. destruct O as [B C].
    apply is_misc_eq in B. apply is_sym_eq in C. subst. apply pbind_ok in H. destruct H as ([d s2] & F & H).
    destruct (okay s2) eqn:O2; [|discriminate H]. injection H as <- <-. apply fold_dict_inv in F; [|exact O2].
    destruct F as (_ & e & -> & ND & D). cbn [rest app] in *. rewrite R' in D. constructor; [exact D | apply ND; constructor].
  - intros W. destruct W as [k t d D ND]. unfold alter_space_of, alter_space, remaining. cbn [rest start].
    destruct t as [|x t]; [inversion D as [|? ? ? ? ? X]; subst; inversion X|].
    cbn [length Nat.leb]. unfold fw_read, kmis. cbn [pbind rest okay start is_ident]. st. cbn [is_misc is_sym]. st.
    rewrite (fold_dict_ok DsKey nil _ d nil D ND). reflexivity.
Qed.
Lemma alter_space_sound ts : sound (alter_space_of ts).
Proof.
  apply hardened_sound. unfold alter_space, remaining. cbn [rest start]. destruct (length ts <=? 3) eqn:L; [right; eexists; reflexivity|].
  apply Nat.leb_gt in L. destruct ts as [|a [|b [|c t]]]; cbn [length] in L; try lia.
  unfold fw_read. cbn [pbind rest okay start]. rewrite need_mk. cbn [cur_is rest pbind]. rewrite need_mk, ahead1.
  cbn [cur_is rest pbind]. rewrite need_mk, ahead1. cbn [okay andb].
  destruct (is_ident a && is_misc KmWith b && is_sym SOpenBrace c) eqn:O; cbn [negb]; [|right; eexists; reflexivity].
  destruct a as [| |k|]; try discriminate O. match goal with |- context [fold_dict ?m ?d ?s] => destruct (fold_dict_total m d s) as (e & s2 & E & _ & _) end.
  rewrite E. cbn [pbind]. destruct (okay s2); [left | right]; eexists; reflexivity.
Qed.

Lemma entity_full_sound s : sound (entity_full s).
Proof. unfold entity_full. destruct (rest s) as [|[| |a|] [|[[]| | |] [|[| |b|] r]]]; try (right; eexists; reflexivity). left. eexists. reflexivity. Qed.
Lemma entity_full_ok s e s' : entity_full s = POk (e, s') -> rest s = full e ++ rest s' /\ okay s' = okay s.
Proof.
  unfold entity_full. destruct (rest s) as [|[| |a|] [|[[]| | |] [|[| |b|] r]]]; try discriminate. intros H. inj H. split; reflexivity.
Qed.

Lemma alter_model_iff ts st : alter_model_of ts = POk st <-> wf_alter_model ts st.
Proof.
  split.
  - intros H. apply hardened_ok in H. destruct H as (s' & H & R'). unfold alter_model in H.
    destruct ((remaining (start ts) <=? 2) || negb (next_is is_ident (start ts))); [discriminate H|].
    apply pbind_ok in H. destruct H as ([[a b] s1] & EF & H). apply entity_full_ok in EF. destruct EF as [EF O]. cbn [rest start okay] in EF, O. subst ts.
    destruct s1 as [r o]. cbn [rest okay] in *. subst o.
    unfold fw_read in H. cbn [rest okay] in H. destruct r as [|x r]; [discriminate H|]. cbn [pbind] in H.
    destruct x as [|[[]|[]]| |]; try discriminate H; apply pbind_ok in H; destruct H as ([k s2] & F & H); inj H.
    + apply pbind_ok in F. destruct F as ([fs s3] & F & H). inj H. apply exp_fields_inv in F; auto. apply (wam_upd (a, b) r fs F).
    + apply pbind_ok in F. destruct F as ([fs s3] & F & H). inj H. apply exp_fields_inv in F; auto. apply (wam_add (a, b) r fs F).
    + apply alter_remove_inv in F; [|exact R']. destruct F as (l & -> & F). apply (wam_rem (a, b) r l F).
  - intros W. destruct W as [[a b] t l E|[a b] t l E|[a b] t l E]; unfold alter_model_of, alter_model; cbn [full fst snd app];
      unfold remaining; cbn [rest start length Nat.leb next_is is_ident negb orb]; unfold entity_full, fw_read, kmis; cbn [rest pbind okay start].
    + rewrite (exp_fields_ok _ _ E). reflexivity.
    + rewrite (exp_fields_ok _ _ E). reflexivity.
    + rewrite (alter_remove_ok _ _ E). reflexivity.
Qed.
(** the statement is left at its end: after the model, or in the type of a column *)
Definition cut_alter_model (ts : list token) : Prop :=
  (exists e, ts = full e) \/
  (exists e k t, ts = full e ++ k :: t /\ (k = kmis KmAdd \/ k = TKw (KStmt KsUpdate)) /\ open_cols t).
Lemma alter_model_class ts : sound (alter_model_of ts) \/ (alter_model_of ts = PPanic /\ cut_alter_model ts).
Proof.
  enough (X : sound (alter_model (start ts)) \/ (alter_model (start ts) = PPanic /\ cut_alter_model ts)).
  { destruct X as [X|[X C]]; [left; apply hardened_sound; exact X | right; split; [unfold alter_model_of; rewrite X; reflexivity | exact C]]. }
  unfold alter_model. destruct ((remaining (start ts) <=? 2) || negb (next_is is_ident (start ts))); [left; right; eexists; reflexivity|].
  destruct (entity_full_sound (start ts)) as [[[[a b] s1] E]|[er E]]; rewrite E; [|left; right; eexists; reflexivity].
  apply entity_full_ok in E. destruct E as [E O]. cbn [rest start okay] in E, O. subst ts. destruct s1 as [r o]. cbn [rest okay] in *. subst o.
  cbn [pbind]. unfold fw_read. cbn [rest okay].
  destruct r as [|x r]; [right; split; [reflexivity|]; left; exists (a, b); reflexivity|]. cbn [pbind].
  destruct x as [|[[]|[]]| |]; try (left; right; eexists; reflexivity).
  - destruct (exp_fields_class (mk_pst r true)) as [[[[fs s] E]|[e E]]|[E C]]; rewrite E; cbn [pbind].
    + left. left. eexists. reflexivity.
    + left. right. eexists. reflexivity.
    + right. split; [reflexivity|]. right. exists (a, b), (TKw (KStmt KsUpdate)), r. auto.
  - destruct (exp_fields_class (mk_pst r true)) as [[[[fs s] E]|[e E]]|[E C]]; rewrite E; cbn [pbind].
    + left. left. eexists. reflexivity.
    + left. right. eexists. reflexivity.
    + right. split; [reflexivity|]. right. exists (a, b), (kmis KmAdd), r. auto.
  - destruct (alter_remove_sound (mk_pst r true)) as [[[k s] E]|[e E]]; rewrite E; cbn [pbind]; left; [left | right]; eexists; reflexivity.
Qed.
(** it is, when the type is complete and the statement ends there *)
Lemma alter_model_cut e k t0 d t1 ls kw : kw = kmis KmAdd \/ kw = TKw (KStmt KsUpdate) ->
  dpre t0 d (kmis KmType :: TSym SColon :: t1) -> NoDup (map fst d) -> lyr t1 ls [] ->
  6 <= length (TId k :: TSym SOpenBrace :: t0) ->
  alter_model_of (full e ++ kw :: TId k :: TSym SOpenBrace :: t0) = PPanic.
Proof.
  intros KW P ND LY L.
  assert (E : exp_field_decl (mk_pst (TId k :: TSym SOpenBrace :: t0) true) = PPanic).
  { apply Nat.leb_le in L. rewrite (exp_step _ _ _ _ L). cbn [is_ident is_sym andb].
    rewrite (tymeta_ok true nil t0 d (TSym SColon :: t1) P ND). cbn [pbind app rest is_sym okay]. rewrite need_mk. cbn [andb].
    rewrite (layers_ok' _ _ _ LY). reflexivity. }
  assert (F : exp_fields (mk_pst (TId k :: TSym SOpenBrace :: t0) true) = PPanic).
  { unfold exp_fields, remaining. cbn [rest]. assert (L' : length (TId k :: TSym SOpenBrace :: t0) <? 5 = false) by (apply Nat.ltb_ge; lia).
    rewrite L', E. reflexivity. }
  destruct e as [a b]. destruct KW as [-> | ->]; unfold alter_model_of, alter_model; cbn [full fst snd app];
    unfold remaining; cbn [rest start length Nat.leb next_is is_ident negb orb]; unfold entity_full, fw_read, kmis; cbn [rest pbind okay start];
    rewrite F; reflexivity.
Qed.

(* ------------------------------------------------------------------ *)
(** * DROP *)

Lemma word_eq_iff w t : word_eq w t = true <-> spells w t.
Proof.
  unfold word_eq, spells. split.
  - destruct t as [| |x|]; try discriminate. rewrite eq_ci_iff. eauto.
  - intros (x & -> & E). apply eq_ci_iff. exact E.
Qed.
Lemma allow_iff s s' : allow_non_empty s = Some s' <->
  exists x k r, rest s = [kmis KmAllow; kmis KmNot; x] ++ TId k :: r /\ spells (bstr "empty"%string) x /\ s' = mk_pst (TId k :: r) (okay s).
Proof.
  unfold allow_non_empty. split.
  - destruct (rest s) as [|a [|b [|c [|[| |k|] r]]]]; try discriminate. intros H.
    destruct (is_misc KmAllow a && is_misc KmNot b && word_eq (bstr "empty"%string) c) eqn:Q; [|discriminate H].
    injection H as <-. apply andb_true_iff in Q. destruct Q as [Q W]. apply andb_true_iff in Q. destruct Q as [A B].
    apply is_misc_eq in A, B. apply word_eq_iff in W. subst. exists c, k, r. auto.
  - intros (x & k & r & -> & S & ->). apply word_eq_iff in S. cbn [app]. unfold kmis. cbn [is_misc andb]. rewrite S. reflexivity.
Qed.
Lemma check_ex_ok s ex s' : check_ex s = POk (ex, s') -> rest s = ex_toks ex ++ rest s' /\ okay s' = okay s.
Proof.
  unfold check_ex. destruct (rest s) as [|a r] eqn:R; [discriminate|]. intros H.
  assert (D : (exists r', a :: r = kmis KmIf :: kexists :: r') \/
     (match a :: r with TKw (KMisc KmIf) :: TKw (KStmt KsExists) :: r => (true, mk_pst r (okay s)) | _ => (false, s) end) = (false, s)).
  { destruct a as [|[|[]]| |]; auto. destruct r as [|[|[[]|]| |] r]; auto. left. eauto. }
  destruct D as [(r' & E)|E].
  - injection E as -> ->. unfold kmis, kexists in H. cbn [rest] in H. destruct r' as [|y r']; [discriminate H|]. inj H. auto.
  - rewrite E in H. rewrite R in H. inj H. auto.
Qed.
Lemma check_ex_mk ex t : t <> nil -> no_if t -> check_ex (mk_pst (ex_toks ex ++ t) true) = POk (ex, mk_pst t true).
Proof.
  intros NE N. unfold check_ex. destruct ex; cbn [ex_toks app rest].
  - unfold kmis, kexists. cbn [rest okay]. destruct t; [congruence | reflexivity].
  - destruct t as [|a r]; [congruence|]. cbn in N.
    destruct a as [|[|[]]| |]; try reflexivity. discriminate N.
Qed.
Lemma drop_space_iff ts st : drop_space_of ts = POk st <-> wf_drop_space ts st.
Proof.
  split.
  - intros H. apply hardened_ok in H. destruct H as (s' & H & R'). unfold drop_space in H.
    apply pbind_ok in H. destruct H as ([ex s] & C & H). apply check_ex_ok in C. destruct C as [E _]. cbn [rest start] in E. subst ts.
    assert (Q : (exists k r, rest s = TId k :: r /\ (SDropSpace k false ex, mk_pst r (okay s)) = (st, s')) \/
      (match allow_non_empty s with
       | Some s' => match rest s' with TId k :: r => POk (SDropSpace k true ex, mk_pst r (okay s')) | _ => PUb end
       | None => PErr ESyntax end) = POk (st, s')).
    { destruct (rest s) as [|[| |k|] r]; auto. left. exists k, r. injection H as <- <-. auto. }
    destruct Q as [(k & r & -> & Q)|Q].
    + inj Q. cbn in R'. subst r. apply (wds ex false nil k). constructor.
    + destruct (allow_non_empty s) as [s1|] eqn:A; [|discriminate Q]. apply allow_iff in A. destruct A as (x & k & r & R & S & ->).
      cbn [rest okay] in Q. inj Q. cbn in R'. subst r. rewrite R. apply wds. constructor. exact S.
  - intros W. destruct W as [ex f F k [|x S]]; unfold drop_space_of, drop_space, start.
    + cbn [app]. rewrite (check_ex_mk ex [TId k]) by (discriminate || reflexivity). reflexivity.
    + rewrite (check_ex_mk ex) by (discriminate || reflexivity). cbn [pbind rest].
      assert (A : allow_non_empty (mk_pst ([kmis KmAllow; kmis KmNot; x] ++ [TId k]) true) = Some (mk_pst [TId k] true)).
      { apply allow_iff. exists x, k, nil. auto. }
      cbn [app] in *. unfold kmis in A |- *. rewrite A. reflexivity.
Qed.
Lemma drop_model_iff ts st : drop_model_of ts = POk st <-> wf_drop_model ts st.
Proof.
  assert (EF : forall s e s', entity_full s = POk (e, s') -> rest s = full e ++ rest s') by (intros s e s' E; apply entity_full_ok in E; tauto).
  split.
  - intros H. apply hardened_ok in H. destruct H as (s' & H & R'). unfold drop_model in H.
    apply pbind_ok in H. destruct H as ([ex s] & C & H). apply check_ex_ok in C. destruct C as [E _]. cbn [rest start] in E. subst ts.
    assert (Q : (pbind (entity_full s) (fun '(e, s) => POk (SDropModel e false ex, s)) = POk (st, s')) \/
      (match allow_non_empty s with
       | Some s' => pbind (entity_full s') (fun '(e, s) => POk (SDropModel e true ex, s))
       | None => PErr ESyntax end) = POk (st, s')).
    { destruct (rest s) as [|[| |k|] r]; auto. }
    destruct Q as [Q|Q].
    + apply pbind_ok in Q. destruct Q as ([e s2] & F & Q). inj Q. apply EF in F. rewrite R', app_nil_r in F. rewrite F. apply (wdm ex false nil e). constructor.
    + destruct (allow_non_empty s) as [s1|] eqn:A; [|discriminate Q]. apply allow_iff in A. destruct A as (x & k & r & R & S & ->).
      apply pbind_ok in Q. destruct Q as ([e s2] & F & Q). inj Q. apply EF in F. cbn [rest] in F. rewrite R', app_nil_r in F. rewrite R, F.
      apply wdm. constructor. exact S.
  - intros W. destruct W as [ex f F [a b] [|x S]]; unfold drop_model_of, drop_model, start.
    + cbn [app]. rewrite (check_ex_mk ex (full (a, b))) by (discriminate || reflexivity). reflexivity.
    + rewrite (check_ex_mk ex) by (discriminate || reflexivity). cbn [pbind rest].
      assert (A : allow_non_empty (mk_pst ([kmis KmAllow; kmis KmNot; x] ++ full (a, b)) true) = Some (mk_pst (full (a, b)) true)).
      { apply allow_iff. exists x, a, [TSym SPeriod; TId b]. auto. }
      cbn [app] in *. unfold kmis in A |- *. rewrite A. reflexivity.
Qed.
Lemma check_ex_sound s : sound (check_ex s).
Proof.
  unfold check_ex. destruct (rest s) as [|a r]; [right; eexists; reflexivity|].
  match goal with |- sound (let '(_, _) := ?x in _) => destruct x as [ex s'] end.
  destruct (rest s'); [right | left]; eexists; reflexivity.
Qed.
Lemma drop_sound ts : sound (drop_space_of ts) /\ sound (drop_model_of ts).
Proof.
  split; apply hardened_sound; [unfold drop_space | unfold drop_model];
    (destruct (check_ex_sound (start ts)) as [[[ex s] ->]|[e ->]]; [|right; eexists; reflexivity]); cbn [pbind].
  - assert (A : sound (match allow_non_empty s with
       | Some s' => match rest s' with TId k :: r => POk (SDropSpace k true ex, mk_pst r (okay s')) | _ => PUb end
       | None => PErr ESyntax end)).
    { destruct (allow_non_empty s) as [s1|] eqn:A; [|right; eexists; reflexivity]. apply allow_iff in A. destruct A as (x & k & r & _ & _ & ->).
      left. eexists. reflexivity. }
    destruct (rest s) as [|[| |k|] r]; auto. left. eexists. reflexivity.
  - assert (E : forall s (f : entity -> stmt), sound (pbind (entity_full s) (fun '(e, s) => POk (f e, s)))).
    { intros s0 f. destruct (entity_full_sound s0) as [[[e s1] ->]|[e ->]]; [left | right]; eexists; reflexivity. }
    assert (A : sound (match allow_non_empty s with
       | Some s' => pbind (entity_full s') (fun '(e, s) => POk (SDropModel e true ex, s))
       | None => PErr ESyntax end)).
    { destruct (allow_non_empty s) as [s1|]; [apply (E s1 (fun e => SDropModel e true ex)) | right; eexists; reflexivity]. }
    destruct (rest s) as [|[| |k|] r]; auto.
Qed.

(* ------------------------------------------------------------------ *)
(** * SYSCTL *)

Lemma user_decl_ok s k d s' : user_decl s = POk (k, d, s') -> okay s = true ->
  exists t, rest s = TId k :: kmis KmWith :: TSym SOpenBrace :: t /\ dbody t d [] /\ NoDup (map fst d) /\ 7 <= length (rest s) /\ rest s' = nil.
Proof.
  unfold user_decl. intros H OS. destruct (rest s) as [|a [|b [|c r]]] eqn:R; try discriminate H.
  destruct (remaining s <? 7) eqn:L; [discriminate H|]. apply Nat.ltb_ge in L. unfold remaining in L. rewrite R in L.
  apply pbind_ok in H. destruct H as ([d2 s2] & F & H). destruct (okay s2) eqn:O2; cbn [negb] in H; [|discriminate H].
  destruct (rest s2) as [|? ?] eqn:R2; [|discriminate H]. destruct a as [| |k'|]; try discriminate H. injection H as -> -> <-.
  apply with_inv in F; [|exact O2]. destruct F as (O1 & x & t & -> & RT & D & ND). rewrite need_mk in O1, RT. cbn [okay rest] in O1, RT.
  injection RT as -> ->. apply andb_true_iff in O1. destruct O1 as [_ O1]. cbn [is_ident andb] in O1. apply andb_true_iff in O1.
  destruct O1 as [W _]. apply is_misc_eq in W. subst b. rewrite R2 in D. exists t. split; [reflexivity|]. split; [exact D|].
  split; [apply ND; constructor|]. split; [exact L | exact R2].
Qed.
Lemma user_decl_mk k t d : dbody t d [] -> NoDup (map fst d) -> 4 <= length t ->
  user_decl (mk_pst (TId k :: kmis KmWith :: TSym SOpenBrace :: t) true) = POk (k, d, mk_pst nil true).
Proof.
  intros D ND L. unfold user_decl, remaining. cbn [rest]. assert (L' : length (TId k :: kmis KmWith :: TSym SOpenBrace :: t) <? 7 = false).
  { apply Nat.ltb_ge. cbn [length]. lia. }
  rewrite L'. cbn [okay is_ident is_misc kmis is_sym andb]. rewrite need_mk. cbn [andb]. rewrite (with_ok _ _ _ D ND). reflexivity.
Qed.
Lemma user_decl_sound s : sound (user_decl s).
Proof.
  unfold user_decl. destruct (rest s) as [|a [|b [|c r]]]; try (right; eexists; reflexivity).
  destruct (remaining s <? 7); [right; eexists; reflexivity|].
  set (s1 := need _ _). destruct (fold_dict_total DsOb nil s1) as (d & s2 & E & _ & O). rewrite E. cbn [pbind].
  destruct (okay s2) eqn:O2; cbn [negb]; [|right; eexists; reflexivity].
  destruct (rest s2); [|right; eexists; reflexivity]. specialize (O eq_refl). unfold s1 in O. apply need_ok in O. destruct O as [_ O].
  destruct a; try discriminate O. left. eexists. reflexivity.
Qed.
(** a statement with options has at least nine tokens *)
Definition long_options (ts : list token) (st : stmt) : Prop :=
  match st with SCreateUser _ _ | SAlterUser _ _ => 9 <= length ts | _ => True end.
Lemma sysctl_iff ts st : sysctl_of ts = POk st <-> wf_sysctl ts st /\ long_options ts st.
Proof.
  split.
  - intros H. apply hardened_ok in H. destruct H as (s' & H & R'). unfold sysctl in H.
    destruct (remaining (start ts) <? 2); [discriminate H|]. unfold fw_read in H. cbn [rest start] in H.
    destruct ts as [|a [|b r]]; [discriminate H | discriminate H|]. cbn [pbind rest okay] in H.
    assert (REP : (if word_eq (bstr "report"%string) a && word_eq (bstr "status"%string) b then POk (SReportStatus, mk_pst r true) else PErr EUnknown) = POk (st, s') ->
      wf_sysctl (a :: b :: r) st /\ long_options (a :: b :: r) st).
    { destruct (word_eq (bstr "report"%string) a && word_eq (bstr "status"%string) b) eqn:W; [|discriminate]. intros X. inj X. cbn in R'. subst r.
      apply andb_true_iff in W. destruct W as [A B]. apply word_eq_iff in A, B. split; [constructor; assumption | exact I]. }
    destruct a as [|[[]|]| |]; try (apply REP; exact H); (destruct (word_eq (bstr "user"%string) b) eqn:U; [|discriminate H]); apply word_eq_iff in U.
    + apply pbind_ok in H. destruct H as ([[k d] s1] & F & H). inj H. apply user_decl_ok in F; [|reflexivity]. destruct F as (t & R & D & ND & L & _).
      cbn [rest] in *. subst r. split; [constructor; assumption|]. cbn [length] in *. cbn. lia.
    + apply pbind_ok in H. destruct H as ([[k d] s1] & F & H). inj H. apply user_decl_ok in F; [|reflexivity]. destruct F as (t & R & D & ND & L & _).
      cbn [rest] in *. subst r. split; [constructor; assumption|]. cbn [length] in *. cbn. lia.
    + destruct r as [|[| |k|] [|]]; try discriminate H. inj H. split; [constructor; exact U | exact I].
  - intros [W L]. unfold sysctl_of, sysctl, fw_read, remaining, start. destruct W as [u k t d U D ND|u k t d U D ND|u k U|a b A B].
    + apply word_eq_iff in U. cbn [length Nat.ltb Nat.leb rest pbind okay]. rewrite U. cbn in L. rewrite (user_decl_mk _ _ _ D ND) by lia. reflexivity.
    + apply word_eq_iff in U. cbn [length Nat.ltb Nat.leb rest pbind okay]. rewrite U. cbn in L. rewrite (user_decl_mk _ _ _ D ND) by lia. reflexivity.
    + apply word_eq_iff in U. cbn [length Nat.ltb Nat.leb rest pbind okay]. rewrite U. reflexivity.
    + apply word_eq_iff in A, B. cbn [length Nat.ltb Nat.leb rest pbind okay]. rewrite A, B. cbn [andb].
      assert (E : exists x, a = TId x) by (destruct a; try discriminate A; eauto). destruct E as (x & ->). reflexivity.
Qed.
Lemma sysctl_sound ts : sound (sysctl_of ts).
Proof.
  apply hardened_sound. unfold sysctl. destruct (remaining (start ts) <? 2) eqn:L; [right; eexists; reflexivity|].
  apply Nat.ltb_ge in L. unfold remaining in L. cbn [rest start] in L. unfold fw_read. cbn [rest start].
  destruct ts as [|a [|b r]]; cbn [length] in L; try lia. cbn [pbind rest okay].
  assert (REP : sound (if word_eq (bstr "report"%string) a && word_eq (bstr "status"%string) b then POk (SReportStatus, mk_pst r true) else PErr EUnknown))
    by (destruct (word_eq (bstr "report"%string) a && word_eq (bstr "status"%string) b); [left | right]; eexists; reflexivity).
  assert (U : forall f : bytes -> dict -> stmt, sound (if word_eq (bstr "user"%string) b then pbind (user_decl (mk_pst r true)) (fun '(k, d, s) => POk (f k d, s)) else PErr EUnknown)).
  { intros f. destruct (word_eq (bstr "user"%string) b); [|right; eexists; reflexivity].
    destruct (user_decl_sound (mk_pst r true)) as [[[[k d] s] ->]|[e ->]]; [left | right]; eexists; reflexivity. }
  destruct a as [|[[]|]| |]; try exact REP; [apply (U SCreateUser) | apply (U SAlterUser) |].
  destruct (word_eq (bstr "user"%string) b); [|right; eexists; reflexivity].
  destruct r as [|[| |k|] [|]]; try (right; eexists; reflexivity). left. eexists. reflexivity.
Qed.

(* ------------------------------------------------------------------ *)
(** * USE, INSPECT *)

Definition use_req_of (u : use_stmt) : use_req := match u with UseSpace k => RSpace k | UseCurrent => RCurrent | UseNull => RNull end.
Definition insp_req_of (i : inspect_stmt) : insp_req := match i with InGlobal => QGlobal | InSpace k => QSpace k | InModel e => QModel e end.

Lemma use_iff ts u : use_of ts = POk u <-> wf_use ts (use_req_of u).
Proof.
  unfold use_of. split.
  - intros H. apply hardened_ok in H. destruct H as (s' & H & R'). unfold parse_use, remaining in H. cbn [rest start okay] in H.
    destruct ts as [|t r]; [discriminate H|]. destruct (2 <? length (t :: r)); [discriminate H|].
    destruct t as [[]|[|[]]|k|]; try discriminate H.
    + destruct r as [|c r']; [discriminate H|]. destruct (word_eq (bstr "current"%string) c) eqn:W; [|discriminate H]. inj H.
      cbn in R'. subst r'. apply word_eq_iff in W. constructor. exact W.
    + inj H. cbn in R'. subst r. constructor.
    + inj H. cbn in R'. subst r. constructor.
  - intros W. destruct u as [k| |]; inversion W as [k0 E1|E1|c S E1]; subst; try reflexivity.
    apply word_eq_iff in S. unfold parse_use, remaining, start. cbn [rest length Nat.ltb Nat.leb okay]. rewrite S. reflexivity.
Qed.
Lemma use_sound ts : sound (use_of ts).
Proof.
  apply hardened_sound. unfold parse_use. destruct (rest (start ts)) as [|t r]; [right; eexists; reflexivity|].
  destruct (2 <? remaining (start ts)); [right; eexists; reflexivity|].
  destruct t as [[]|[|[]]|k|]; try (right; eexists; reflexivity); try (left; eexists; reflexivity).
  destruct r as [|c r']; [right; eexists; reflexivity|]. destruct (word_eq (bstr "current"%string) c); [left | right]; eexists; reflexivity.
Qed.
Lemma entity_ref_ok cs s e s' : entity_ref cs s = POk (e, s') -> exists en, names cs en e /\ rest s = en ++ rest s'.
Proof.
  unfold entity_ref. intros H.
  assert (Q : (exists a b r, rest s = TId a :: TSym SPeriod :: TId b :: r /\ POk ((a, b), mk_pst r (okay s)) = POk (e, s')) \/
    (exists b r, rest s = TId b :: r /\ match cs with Some a => POk ((a, b), mk_pst r (okay s)) | None => PErr EExpEntity end = POk (e, s'))).
  { destruct (rest s) as [|[| |a|] r]; try discriminate H. destruct r as [|[[]| | |] [|[| |b|] r]]; try (right; exists a; eexists; split; [reflexivity | exact H]).
    left. exists a, b, r. auto. }
  destruct Q as [(a & b & r & -> & Q)|(b & r & -> & Q)].
  - inj Q. exists [TId a; TSym SPeriod; TId b]. split; [constructor | reflexivity].
  - destruct cs as [a|]; [|discriminate Q]. inj Q. exists [TId b]. split; [constructor; reflexivity | reflexivity].
Qed.
Lemma inspect_iff cs ts i : inspect_of cs ts = POk i <-> wf_inspect cs ts (insp_req_of i).
Proof.
  unfold inspect_of. split.
  - intros H. apply hardened_ok in H. destruct H as (s' & H & R'). unfold parse_inspect in H. cbn [rest start okay] in H.
    destruct ts as [|t r]; [discriminate H|].
    assert (G : (if word_eq (bstr "global"%string) t then POk (InGlobal, mk_pst r true) else PErr ESyntax) = POk (i, s') -> wf_inspect cs (t :: r) (insp_req_of i)).
    { destruct (word_eq (bstr "global"%string) t) eqn:W; [|discriminate]. intros X. inj X. cbn in R'. subst r. apply word_eq_iff in W. constructor. exact W. }
    destruct t as [|[|[]]| |]; try (apply G; exact H).
    + apply pbind_ok in H. destruct H as ([e s1] & E & H). inj H. apply entity_ref_ok in E. destruct E as (en & N & E). cbn [rest] in E.
      rewrite R', app_nil_r in E. subst r. constructor. exact N.
    + destruct r as [|[| |k|] r']; try discriminate H. inj H. cbn in R'. subst r'. constructor.
  - intros W. destruct i as [|k|e]; inversion W as [g S E1|k0 E1|en e0 N E1]; subst.
    + apply word_eq_iff in S. assert (E : exists x, g = TId x) by (destruct g; try discriminate S; eauto). destruct E as (x & ->).
      unfold parse_inspect, start. cbn [rest okay]. rewrite S. reflexivity.
    + reflexivity.
    + inversion N as [a b E1 E2|a b EC E1 E2]; subst; reflexivity.
Qed.
Lemma inspect_sound cs ts : sound (inspect_of cs ts).
Proof.
  apply hardened_sound. unfold parse_inspect. cbn [rest start okay]. destruct ts as [|t r]; [right; eexists; reflexivity|].
  assert (G : sound (if word_eq (bstr "global"%string) t then POk (InGlobal, mk_pst r true) else PErr ESyntax))
    by (destruct (word_eq (bstr "global"%string) t); [left | right]; eexists; reflexivity).
  destruct t as [|[|[]]| |]; try exact G.
  - unfold entity_ref. cbn [rest okay].
    destruct r as [|[| |a|] r]; try (right; eexists; reflexivity).
    destruct r as [|[[]| | |] [|[| |b|] r]]; try (destruct cs; [left | right]; eexists; reflexivity). left. eexists. reflexivity.
  - destruct r as [|[| |k|] r']; try (right; eexists; reflexivity). left. eexists. reflexivity.
Qed.
