(** Proofs about the parsers of the schema and system statements. *)
From Coq Require Import Strings.String List NArith Bool Arith Lia.
From Verif Require Import Bytes DataModel CodecModel TypeModel GnsModel RowModel LexModel LexSpec LexProofs
  ParseModel ParseSpec ParseProofs DdlModel DdlSpec DdlProofs.
Import ListNotations.

Ltac inj H := injection H as <- <-.

(* ------------------------------------------------------------------ *)
(** * Columns *)

Lemma fdecl_len t f r : fdecl t f r -> length r < length t.
Proof. intros [null prim k t0 ls r0 F L]. apply lyr_len in L. rewrite app_length. cbn [length]. lia. Qed.

Lemma field_inv s f s' : field_decl s = POk (f, s') -> okay s = true /\ okay s' = true /\ fdecl (rest s) f (rest s').
Proof.
  unfold field_decl. destruct (remaining s <? 2); [discriminate|]. intros H.
  apply pbind_ok in H. destruct H as (prim & C1 & H). apply cur_is_ok in C1. destruct C1 as (t1 & r1 & R1 & P1).
  apply pbind_ok in H. destruct H as (null & C2 & H). apply cur_is_ok in C2. destruct C2 as (t2 & r2 & R2 & P2).
  apply pbind_ok in H. destruct H as ([a s1] & F1 & H). apply pbind_ok in H. destruct H as ([b s2] & F2 & H).
  destruct a as [|?|k|?]; try discriminate H. destruct b as [[]| | |]; try discriminate H.
  apply pbind_ok in H. destruct H as ([ls s3] & L & H). destruct (okay s3) eqn:O3; [|discriminate H]. inj H.
  apply layers_inv' in L; [|exact O3]. destruct L as [O2 L].
  unfold fw_read in F1, F2.
  destruct (rest (need (negb (prim && null)) (ahead_if null (ahead_if prim s)))) as [|x1 q1] eqn:E1; [discriminate F1|].
  injection F1 as -> <-. cbn [rest okay] in *. destruct q1 as [|x2 q2]; [discriminate F2|]. injection F2 as -> <-.
  cbn [rest okay] in *.
  assert (ON : okay s = true /\ negb (prim && null) = true).
  { apply andb_true_iff in O2. destruct O2 as [O2 N]. split; [|exact N]. destruct null, prim; exact O2. }
  destruct ON as [OS N]. split; [exact OS|]. split; [exact O3|].
  assert (RS : rest s = flag_toks null prim ++ TId k :: TSym SColon :: q2).
  { cbn [need rest] in E1. unfold flag_toks. destruct prim.
    - symmetry in P1. apply is_misc_eq in P1. subst t1. 
      destruct null; [discriminate N|]. cbn in E1. rewrite R1 in E1. cbn in E1. rewrite R1, E1. reflexivity.
    - cbn [ahead_if] in *. destruct null.
      + symmetry in P2. apply is_misc_eq in P2. subst t2. cbn in E1. rewrite R2 in E1. cbn in E1. rewrite R2, E1. reflexivity.
      + cbn [ahead_if] in E1. cbn. exact E1. }
  rewrite RS. constructor; [|exact L]. destruct (prim && null); [discriminate N | reflexivity].
Qed.
Lemma lyr_head t l r : lyr t l r -> exists ty t', t = TId ty :: t'.
Proof. intros H. destruct H; eauto. Qed.
Lemma field_ok t f r : fdecl t f r -> field_decl (mk_pst t true) = POk (f, mk_pst r true).
Proof.
  intros [null prim k t0 ls r0 F L]. pose proof (lyr_head _ _ _ L) as (ty & t' & ->).
  apply layers_ok' in L.
  assert (E : field_decl (mk_pst (flag_toks null prim ++ TId k :: TSym SColon :: TId ty :: t') true) =
    pbind (layers (mk_pst (TId ty :: t') true)) (fun '(ls, s) => if okay s then POk (mk_fs k ls null prim, s) else PErr ETypeDef))
    by (destruct prim, null; try discriminate F; reflexivity).
  rewrite E, L. reflexivity.
Qed.

(** where reading a column leaves the statement *)
Definition cut_decl (t : list token) : Prop :=
  (exists x, t = [kmis KmPrimary; x]) \/ (exists x, t = [kmis KmNull; x]) \/ (exists x, t = [kmis KmPrimary; kmis KmNull; x]).
Lemma field_class s : (sound (field_decl s) \/ field_decl s = PPanic) /\ (field_decl s = PPanic <-> cut_decl (rest s)).
Proof.
  assert (END : forall (nl pr : bool) t1 t2 r o, sound (match t1, t2 with
    | TId k, TSym SColon => pbind (layers (mk_pst r o)) (fun '(ls, s) => if okay s then POk (mk_fs k ls nl pr, s) else PErr ETypeDef)
    | _, _ => PErr ESyntax end)).
  { intros nl pr t1 t2 r o. destruct t1; try (right; eexists; reflexivity). destruct t2 as [[]| | |]; try (right; eexists; reflexivity).
    unfold layers. destruct (layers_total (S (remaining (mk_pst r o))) nil (mk_pst r o)) as (l & s' & E & _ & _); [unfold remaining; lia|].
    rewrite E. cbn [pbind]. destruct (okay s'); [left | right]; eexists; reflexivity. }
  assert (SD : forall (A : Type) (x : pres A), sound x -> (sound x \/ x = PPanic) /\ x <> PPanic).
  { intros A x S. split; [auto|]. destruct S as [[y ->]|[e ->]]; discriminate. }
  unfold field_decl, remaining. destruct s as [ts o]. cbn [rest].
  destruct ts as [|a [|b [|c r]]].
  - cbn. split; [left; right; eauto|]. split; [discriminate|]. intros [(x & E)|[(x & E)|(x & E)]]; discriminate E.
  - cbn. split; [left; right; eauto|]. split; [discriminate|]. intros [(x & E)|[(x & E)|(x & E)]]; discriminate E.
  - cbn [length Nat.ltb Nat.leb cur_is rest pbind]. destruct (is_misc KmPrimary a) eqn:P.
    + apply is_misc_eq in P. subst a. cbn [ahead_if]. st. destruct (is_misc KmNull b) eqn:N; cbn [ahead_if]; st;
        (split; [right; reflexivity|]); (split; [intros _; left; eauto | reflexivity]).
    + cbn [ahead_if cur_is rest pbind]. destruct (is_misc KmNull a) eqn:N.
      * apply is_misc_eq in N. subst a. cbn [ahead_if]. st. split; [right; reflexivity|]. split; [intros _; right; left; eauto | reflexivity].
      * cbn [ahead_if]. st. unfold fw_read. st.
        match goal with |- (sound ?x \/ _) /\ _ => destruct (SD _ x) as [S1 S2] end; [apply END|]. split; [exact S1|].
        split; [intros E; congruence|]. intros [(x & E)|[(x & E)|(x & E)]]; inversion E; subst; discriminate.
  - cbn [length Nat.ltb Nat.leb cur_is rest pbind]. destruct (is_misc KmPrimary a) eqn:P.
    + apply is_misc_eq in P. subst a. cbn [ahead_if]. st. destruct (is_misc KmNull b) eqn:N; cbn [ahead_if]; st; unfold fw_read; st.
      * apply is_misc_eq in N. subst b. destruct r as [|d r].
        { split; [right; reflexivity|]. split; [intros _; right; right; eauto | reflexivity]. }
        cbn [rest pbind]. match goal with |- (sound ?x \/ _) /\ _ => destruct (SD _ x) as [S1 S2] end; [apply END|]. split; [exact S1|].
        split; [intros E; congruence|]. intros [(x & E)|[(x & E)|(x & E)]]; inversion E; subst; discriminate.
      * match goal with |- (sound ?x \/ _) /\ _ => destruct (SD _ x) as [S1 S2] end; [apply END|]. split; [exact S1|].
        split; [intros E; congruence|]. intros [(x & E)|[(x & E)|(x & E)]]; inversion E; subst; discriminate.
    + cbn [ahead_if cur_is rest pbind]. destruct (is_misc KmNull a) eqn:N; cbn [ahead_if]; st; unfold fw_read; st.
      * match goal with |- (sound ?x \/ _) /\ _ => destruct (SD _ x) as [S1 S2] end; [apply END|]. split; [exact S1|].
        split; [intros E; congruence|]. intros [(x & E)|[(x & E)|(x & E)]]; inversion E; subst; discriminate.
      * match goal with |- (sound ?x \/ _) /\ _ => destruct (SD _ x) as [S1 S2] end; [apply END|]. split; [exact S1|].
        split; [intros E; congruence|]. intros [(x & E)|[(x & E)|(x & E)]]; inversion E; subst; discriminate.
Qed.

(** the loop over the columns *)
Lemma pst_eta s : okay s = true -> s = mk_pst (rest s) true.
Proof. destruct s; cbn; intros ->; reflexivity. Qed.
Lemma sym_is r k : next_is (is_sym k) (mk_pst (TSym k :: r) true) = is_sym k (TSym k).
Proof. reflexivity. Qed.

Lemma decl_loop_inv n : forall fs s fs' s', decl_loop n fs false s = POk (fs', true, s') -> okay s' = true ->
  okay s = true /\ exists l, fs' = fs ++ l /\ items fdecl (rest s) l (rest s').
Proof.
  induction n as [|n IH]; intros fs s fs' s' H O; [discriminate H|]. cbn [decl_loop] in H.
  destruct (going s) eqn:G; cbn [negb orb] in H; [|discriminate H].
  apply pbind_ok in H. destruct H as ([f s1] & F & H). apply field_inv in F. destruct F as (OS & O1 & F). split; [exact OS|].
  rewrite (pst_eta s1 O1) in H. destruct (next_is (is_sym SCloseParen) (mk_pst (rest s1) true)) eqn:E.
  - apply next_sym in E. destruct E as (r & E). cbn [rest] in E. rewrite E in *. cbn [orb next_is rest is_sym] in H.
    rewrite need_mk in H. cbn [andb ahead_if] in H. rewrite ahead1 in H.
    destruct n; [discriminate H|]. cbn [decl_loop] in H. rewrite orb_true_r in H. injection H as <- <-.
    exists [f]. split; [reflexivity|]. constructor. exact F.
  - destruct (next_is (is_sym SComma) (mk_pst (rest s1) true)) eqn:C.
    + apply next_sym in C. destruct C as (r & C). cbn [rest] in C. rewrite C in *. cbn [orb] in H.
      rewrite need_mk in H. cbn [andb ahead_if] in H. rewrite ahead1 in H.
      apply IH in H; [|exact O]. destruct H as (_ & l & -> & I). exists (f :: l). rewrite <- app_assoc. split; [reflexivity|].
      econstructor; [exact F | exact I].
    + cbn [orb ahead_if] in H. rewrite need_mk in H. cbn [andb] in H. destruct n; [discriminate H|]. cbn [decl_loop] in H.
      assert (GF : going (mk_pst (rest s1) false) = false) by (unfold going; cbn; destruct (rest s1); reflexivity).
      rewrite GF in H. cbn in H. discriminate H.
Qed.
Lemma items_len {A} (p : list token -> A -> list token -> Prop) : (forall t x r, p t x r -> length r < length t) ->
  forall t l r, items p t l r -> S (length r) < length t.
Proof. intros P t l r I. induction I as [t x r X|t x t1 l r X I IH]; apply P in X; cbn in X; lia. Qed.
Lemma fdecl_nonempty t f r : fdecl t f r -> exists a t', t = a :: t'.
Proof. intros H. apply fdecl_len in H. destruct t; [cbn in H; lia | eauto]. Qed.
Lemma decl_loop_ok t l r : items fdecl t l r -> forall n fs, length t < n ->
  decl_loop n fs false (mk_pst t true) = POk (fs ++ l, true, mk_pst r true).
Proof.
  induction 1 as [t f r F|t f t1 l r F I IH]; intros n fs L; (destruct n as [|n]; [lia|]); cbn [decl_loop];
    pose proof (fdecl_len _ _ _ F) as LF; pose proof (fdecl_nonempty _ _ _ F) as (a & t' & ->); rewrite going_cons; cbn [negb orb];
    rewrite (field_ok _ _ _ F); cbn [pbind].
  - cbn [next_is rest is_sym orb ahead_if]. rewrite need_mk. cbn [andb]. rewrite ahead1. cbn [length] in *.
    destruct n; [lia|]. cbn [decl_loop]. rewrite orb_true_r. reflexivity.
  - cbn [next_is rest is_sym orb ahead_if]. rewrite need_mk. cbn [andb]. rewrite ahead1. cbn [length] in *.
    rewrite IH by lia. rewrite <- app_assoc. reflexivity.
Qed.

(** the statement is left exactly after some columns *)
Definition cut_decls (t : list token) : Prop := exists l r, pitems fdecl t l r /\ cut_decl r.
Lemma items_cut t l r : items fdecl t l r -> ~ cut_decls t.
Proof.
  intros I (l' & r' & P & C). revert l r I. induction P as [t|t x t1 l0 r0 X P IH]; intros l r I.
  - assert (F : exists f r1, fdecl t f r1) by (inversion I; subst; eauto). destruct F as (f & r1 & F).
    apply field_ok in F. destruct (field_class (mk_pst t true)) as [_ K]. apply K in C. congruence.
  - apply field_ok in X. inversion I as [t0 f r1 F E1 E2 E3|t0 f t2 l2 r1 F I2 E1 E2 E3]; subst; apply field_ok in F.
    + congruence.
    + rewrite X in F. injection F as <- <-. apply (IH C _ _ I2).
Qed.
Lemma decl_loop_class n : forall fs stop s, length (rest s) < n ->
  (exists fs' stop' s', decl_loop n fs stop s = POk (fs', stop', s') /\ length (rest s') <= length (rest s)) \/
  (exists e, decl_loop n fs stop s = PErr e) \/
  (decl_loop n fs stop s = PPanic /\ stop = false /\ okay s = true /\ cut_decls (rest s)).
Proof.
  induction n as [|n IH]; intros fs stop s L; [lia|]. cbn [decl_loop].
  destruct (negb (going s) || stop) eqn:Q; [left; do 3 eexists; split; [reflexivity | lia]|].
  apply orb_false_iff in Q. destruct Q as [G ->]. rewrite negb_false_iff in G. apply going_true in G. destruct G as [OS NE].
  destruct (field_class s) as [[[[[f s1] F]|[e F]]|F] K].
  - rewrite F. cbn [pbind]. pose proof (field_inv _ _ _ F) as (_ & O1 & FD). pose proof (fdecl_len _ _ _ FD) as LF.
    set (e := next_is (is_sym SCloseParen) s1). set (c := next_is (is_sym SComma) s1).
    assert (L2 : length (rest (ahead_if (e || c) (need (e || c) s1))) <= length (rest s1)).
    { destruct (e || c); cbn; [|lia]. destruct (rest s1); cbn; lia. }
    destruct (IH (fs ++ [f]) e (ahead_if (e || c) (need (e || c) s1)) ltac:(lia)) as [(a & b & s' & -> & LL)|[[er ->]|(-> & ES & O2 & C)]].
    + left. do 3 eexists. split; [reflexivity | lia].
    + right. left. eauto.
    + right. right. split; [reflexivity|]. split; [reflexivity|]. split; [exact OS|].
      rewrite ES in *. cbn [orb] in *. subst c. destruct (next_is (is_sym SComma) s1) eqn:CC.
      * apply next_sym in CC. destruct CC as (r & CC). cbn [ahead_if ahead need rest] in C. rewrite CC in *. cbn [skipn] in C.
        destruct C as (l & r2 & P & CD). exists (f :: l), r2. split; [|exact CD]. econstructor; eassumption.
      * cbn in O2. rewrite andb_false_r in O2. discriminate O2.
  - right. left. rewrite F. eexists. reflexivity.
  - right. right. rewrite F. cbn. split; [reflexivity|]. split; [reflexivity|]. split; [exact OS|].
    exists nil, (rest s). split; [constructor|]. apply K. exact F.
Qed.
Lemma decl_loop_cut l t r : pitems fdecl t l r -> cut_decl r -> forall n fs, length t < n ->
  decl_loop n fs false (mk_pst t true) = PPanic.
Proof.
  induction 1 as [t|t f t1 l r F P IH]; intros C n fs L; (destruct n as [|n]; [lia|]); cbn [decl_loop].
  - assert (G : going (mk_pst t true) = true) by (destruct C as [[x ->]|[[x ->]|[x ->]]]; reflexivity). rewrite G. cbn [negb orb].
    destruct (field_class (mk_pst t true)) as [_ K]. apply K in C. rewrite C. reflexivity.
  - pose proof (fdecl_len _ _ _ F) as LF; pose proof (fdecl_nonempty _ _ _ F) as (a & t' & ->); rewrite going_cons; cbn [negb orb].
    rewrite (field_ok _ _ _ F). cbn [pbind next_is rest is_sym orb ahead_if]. rewrite need_mk. cbn [andb]. rewrite ahead1.
    cbn [length] in *. apply IH; [exact C | lia].
Qed.

Definition exp_fin (nm : token) (ls : list layer_spec) (props : dict) (s : pst) : pres (exp_field * pst) :=
  if okay s then match nm with TId k => POk (mk_ef k ls props, s) | _ => PUb end else PErr ESyntax.
Lemma exp_step nm ob t o : (6 <=? length (nm :: ob :: t)) = true -> exp_field_decl (mk_pst (nm :: ob :: t) o) =
  pbind (fold_tymeta nil (mk_pst t (o && is_ident nm && is_sym SOpenBrace ob))) (fun '(more, props, s) =>
  if more then
    match rest s with
    | nil => PErr EEnd
    | c :: r =>
        pbind (layers (need (is_sym SColon c) (mk_pst r (okay s)))) (fun '(ls, s) =>
        pbind (fw_read s) (fun '(t, s) =>
        match t with
        | TSym SComma => pbind (fold_dict DsKey props s) (fun '(props, s) => exp_fin nm ls props s)
        | TSym SCloseBrace => exp_fin nm ls props s
        | _ => exp_fin nm ls props (poison s)
        end))
    end
  else exp_fin nm nil props s).
Proof.
  intros L. unfold exp_field_decl, remaining. cbn [rest]. rewrite Nat.ltb_antisym, L. cbn [negb]. reflexivity.
Qed.
Lemma is_ident_eq t : is_ident t = true -> exists k, t = TId k.
Proof. destruct t; try discriminate. eauto. Qed.

Lemma exp_fin_ok nm ls d s f s' : exp_fin nm ls d s = POk (f, s') -> okay s = true /\ s' = s /\ exists k, nm = TId k /\ f = mk_ef k ls d.
Proof. unfold exp_fin. destruct (okay s); [|discriminate]. destruct nm; try discriminate. intros H. inj H. eauto 6. Qed.

Lemma exp_inv s f s' : exp_field_decl s = POk (f, s') -> okay s = true /\ okay s' = true /\ edecl (rest s) f (rest s').
Proof.
  destruct s as [ts o]. cbn [rest okay]. destruct (6 <=? length ts) eqn:L.
  2:{ unfold exp_field_decl, remaining. cbn [rest]. rewrite Nat.ltb_antisym, L. discriminate. }
  destruct ts as [|nm [|ob t]]; [discriminate L | discriminate L|]. rewrite (exp_step _ _ _ _ L). apply Nat.leb_le in L.
  intros H. apply pbind_ok in H. destruct H as ([[more props] s1] & E & H).
  destruct more.
  - destruct (rest s1) as [|c r] eqn:R1; [discriminate H|]. apply pbind_ok in H. destruct H as ([ls s2] & LY & H).
    apply pbind_ok in H. destruct H as ([x s3] & F & H). unfold fw_read in F. destruct (rest s2) as [|x' r2] eqn:R2; [discriminate F|].
    injection F as -> <-.
    assert (Q : okay s2 = true /\ okay s' = true /\ exists k d2, nm = TId k /\ f = mk_ef k ls (props ++ d2) /\ dtail (rest s2) d2 (rest s') /\
       (NoDup (keys props) -> NoDup (keys (props ++ d2)))).
    { destruct x as [[]| | |]; try (apply exp_fin_ok in H; destruct H as (O & _); discriminate O).
      - apply exp_fin_ok in H. destruct H as (O & -> & k & -> & ->). cbn [okay rest] in *. split; [exact O|]. split; [exact O|].
        exists k, nil. rewrite app_nil_r, R2. repeat split; auto. constructor.
      - apply pbind_ok in H. destruct H as ([p' s4] & FD & H). apply exp_fin_ok in H. destruct H as (O & -> & k & -> & ->).
        apply fold_dict_inv in FD; [|exact O]. destruct FD as (O2 & e & -> & ND & DR). cbn [okay rest] in *.
        split; [exact O2|]. split; [exact O|]. exists k, e. rewrite R2. repeat split; auto. constructor. exact DR. }
    destruct Q as (O2 & O' & k & d2 & -> & -> & DT & ND2). apply layers_inv' in LY; [|exact O2]. destruct LY as [O1 LY].
    cbn [need rest okay] in *. apply andb_true_iff in O1. destruct O1 as [O1 C]. apply is_sym_eq in C. subst c.
    apply tymeta_inv in E; [|exact O1]. destruct E as (OS & e & -> & ND & DC). cbn [okay rest app dcont] in *.
    apply andb_true_iff in OS. destruct OS as [OS OB]. apply is_sym_eq in OB. subst ob. apply andb_true_iff in OS. destruct OS as [OS _].
    split; [exact OS|]. split; [exact O'|]. rewrite R1 in DC. eapply ed_type; [exact DC | exact LY | exact DT | apply ND2, ND; constructor | exact L].
  - apply exp_fin_ok in H. destruct H as (O & -> & k & -> & ->). apply tymeta_inv in E; [|exact O]. destruct E as (OS & e & -> & ND & DC).
    cbn [okay rest app dcont] in *. apply andb_true_iff in OS. destruct OS as [OS OB]. apply is_sym_eq in OB. subst ob.
    apply andb_true_iff in OS. destruct OS as [OS _]. split; [exact OS|]. split; [exact O|]. constructor; [exact DC | apply ND; constructor | exact L].
Qed.
Lemma nodup_left {A} (a b : list A) : NoDup (a ++ b) -> NoDup a.
Proof.
  induction a as [|x a IH]; [constructor|]. cbn. intros H. inversion H as [|y l NI ND]; subst. constructor; [|auto].
  intros I. apply NI. apply in_or_app. auto.
Qed.
Lemma exp_ok t f r : edecl t f r -> exp_field_decl (mk_pst t true) = POk (f, mk_pst r true).
Proof.
  intros [k t0 d r0 B ND L|k t0 d1 t1 ls t2 d2 r0 P LY D ND L]; apply Nat.leb_le in L; rewrite (exp_step _ _ _ _ L); cbn [is_ident is_sym andb].
  - rewrite (tymeta_ok false nil t0 d r0 B ND). reflexivity.
  - assert (ND1 : NoDup (keys ([] ++ d1))) by (cbn; unfold keys; rewrite map_app in ND; exact (nodup_left _ _ ND)).
    rewrite (tymeta_ok true nil t0 d1 (TSym SColon :: t1) P ND1). cbn [pbind app rest is_sym okay]. rewrite need_mk. cbn [andb].
    rewrite (layers_ok' _ _ _ LY). cbn [pbind].
    inversion D as [r1 E1 E2 E3|t3 d0 r1 B E1 E2 E3]; subst; unfold fw_read; cbn [rest okay pbind].
    + rewrite app_nil_r. reflexivity.
    + rewrite (fold_dict_ok DsKey d1 t3 d2 r0 B ND). reflexivity.
Qed.
Lemma edecl_len t f r : edecl t f r -> length r < length t.
Proof.
  intros [k t0 d r0 B ND L|k t0 d1 t1 ls t2 d2 r0 P LY D ND L]; cbn [length] in *.
  - apply dbody_len in B. lia.
  - apply dpre_len in P. apply lyr_len in LY. apply dtail_len in D. cbn [length] in P. lia.
Qed.
Lemma edecl_head t f r : edecl t f r -> exists k t', t = TId k :: t'.
Proof. intros [k t0 d r0 B ND L|k t0 d1 t1 ls t2 d2 r0 P LY D ND L]; eauto. Qed.

(** the tokens in which the statement can be left: a column whose type is at the end *)
Definition open_edecl (t : list token) : Prop :=
  exists k t0 d t1, t = TId k :: TSym SOpenBrace :: t0 /\ dpre t0 d (kmis KmType :: t1) /\ 6 <= length t.
Lemma exp_fin_sound nm ls d s : (okay s = true -> is_ident nm = true) -> sound (exp_fin nm ls d s).
Proof.
  intros I. unfold exp_fin. destruct (okay s); [|right; eexists; reflexivity].
  specialize (I eq_refl). apply is_ident_eq in I. destruct I as (k & ->). left. eexists. reflexivity.
Qed.
Lemma exp_class s : sound (exp_field_decl s) \/ (exp_field_decl s = PPanic /\ okay s = true /\ open_edecl (rest s)).
Proof.
  destruct s as [ts o]. cbn [rest okay]. destruct (6 <=? length ts) eqn:L.
  2:{ left. unfold exp_field_decl, remaining. cbn [rest]. rewrite Nat.ltb_antisym, L. right. eexists. reflexivity. }
  destruct ts as [|nm [|ob t]]; [discriminate L | discriminate L|]. rewrite (exp_step _ _ _ _ L). apply Nat.leb_le in L.
  destruct (tymeta_total nil (mk_pst t (o && is_ident nm && is_sym SOpenBrace ob))) as (more & props & s1 & E & _ & OI).
  cbn [okay] in OI.
  assert (ID : okay s1 = true -> is_ident nm = true).
  { intros O. apply OI in O. apply andb_true_iff in O. destruct O as [O _]. apply andb_true_iff in O. tauto. }
  destruct more.
  - assert (O1 : okay s1 = true).
    { destruct (okay s1) eqn:O1; [reflexivity|]. exfalso. unfold fold_tymeta in E. clear -E O1.
      (* the breakpoint is reached in a good state only *)
      revert E O1. generalize (S (remaining (mk_pst t (o && is_ident nm && is_sym SOpenBrace ob)))) as n.
      generalize (mk_pst t (o && is_ident nm && is_sym SOpenBrace ob)) as s. generalize (@nil (bytes * dentry)) as d. generalize DsKey as m.
      intros m d s n. revert m d s. induction n as [|n IH]; intros m d s E O1; [discriminate E|].
      destruct (going s) eqn:G; [|rewrite (dict_stop n true m d s G) in E; discriminate E].
      destruct s as [[|a r] ok]; [discriminate G|]. cbn in G. subst ok. rewrite dict_step in E. cbn zeta in E.
      assert (OTHER : match m, true && is_misc KmType a with
        | DsKey, true => POk (true, d, mk_pst r true) | _, _ => POk (false, d, poison (mk_pst (a :: r) true)) end = POk (true, props, s1) -> False).
      { destruct m; [discriminate| |discriminate|discriminate|discriminate]. destruct (true && is_misc KmType a); [|discriminate].
        intros X. injection X as <- <-. discriminate O1. }
      destruct m as [| |k|k|]; destruct a as [[]|[k0|[]]|w|l]; try (apply OTHER; exact E); try (apply IH in E; [exact E | exact O1]); try discriminate E.
      apply pbind_ok in E. destruct E as ([[b nd] s2] & _ & E). apply IH in E; [exact E | exact O1]. }
    specialize (ID O1). pose proof (OI O1) as OO. apply andb_true_iff in OO. destruct OO as [OO OB]. apply is_sym_eq in OB. subst ob.
    apply andb_true_iff in OO. destruct OO as [-> _]. apply is_ident_eq in ID. destruct ID as (k & ->). cbn [is_ident is_sym andb] in E.
    pose proof (tymeta_inv _ _ _ _ _ E O1) as (_ & e & EP & _ & DC). cbn [rest app dcont] in *. subst e.
    cbn [is_ident is_sym andb]. rewrite E. cbn [pbind].
    destruct (rest s1) as [|c r] eqn:R1; [left; right; eexists; reflexivity|].
    unfold layers. set (sl := need (is_sym SColon c) (mk_pst r (okay s1))).
    destruct (layers_total (S (remaining sl)) nil sl ltac:(unfold remaining; lia)) as (ls & s2 & EL & _ & _). rewrite EL. cbn [pbind].
    unfold fw_read. destruct (rest s2) as [|x r2]; cbn [pbind].
    + right. split; [reflexivity|]. split; [reflexivity|]. exists k, t, props, (c :: r). auto.
    + left. destruct x as [[]| | |]; try (apply exp_fin_sound; intros; reflexivity).
      destruct (fold_dict_total DsKey props (mk_pst r2 (okay s2))) as (d' & s4 & E4 & _ & _). rewrite E4. cbn [pbind].
      apply exp_fin_sound. intros; reflexivity.
  - rewrite E. cbn [pbind]. left. apply exp_fin_sound. exact ID.
Qed.

Lemma exp_loop_inv n : forall fs s fs' s', exp_loop n fs false s = POk (fs', true, s') -> okay s' = true ->
  okay s = true /\ exists l, fs' = fs ++ l /\ items edecl (rest s) l (rest s').
Proof.
  induction n as [|n IH]; intros fs s fs' s' H O; [discriminate H|]. cbn [exp_loop] in H.
  destruct (going s) eqn:G; cbn [negb orb] in H; [|discriminate H]. apply going_true in G. destruct G as [OS _]. split; [exact OS|].
  destruct (rest s) as [|[| |k|] r0] eqn:R; try discriminate H.
  apply pbind_ok in H. destruct H as ([f s1] & F & H). apply exp_inv in F. destruct F as (_ & O1 & F). rewrite R in F.
  rewrite (pst_eta s1 O1) in H. destruct (next_is (is_sym SCloseParen) (mk_pst (rest s1) true)) eqn:E.
  - apply next_sym in E. destruct E as (r & E). cbn [rest] in E. rewrite E in *. cbn [orb next_is rest is_sym] in H.
    rewrite need_mk in H. cbn [andb okay ahead_if] in H. rewrite ahead1 in H.
    destruct n; [discriminate H|]. cbn [exp_loop] in H. rewrite orb_true_r in H. injection H as <- <-.
    exists [f]. split; [reflexivity|]. constructor. exact F.
  - destruct (next_is (is_sym SComma) (mk_pst (rest s1) true)) eqn:C.
    + apply next_sym in C. destruct C as (r & C). cbn [rest] in C. rewrite C in *. cbn [orb] in H.
      rewrite need_mk in H. cbn [andb okay ahead_if] in H. rewrite ahead1 in H.
      apply IH in H; [|exact O]. destruct H as (_ & l & -> & I). exists (f :: l). rewrite <- app_assoc. split; [reflexivity|].
      econstructor; [exact F | exact I].
    + cbn [orb ahead_if] in H. rewrite need_mk in H. cbn [andb okay ahead_if] in H. destruct n; [discriminate H|]. cbn [exp_loop] in H.
      assert (GF : going (mk_pst (rest s1) false) = false) by (unfold going; cbn; destruct (rest s1); reflexivity).
      rewrite GF in H. cbn in H. discriminate H.
Qed.
Lemma exp_loop_ok t l r : items edecl t l r -> forall n fs, length t < n ->
  exp_loop n fs false (mk_pst t true) = POk (fs ++ l, true, mk_pst r true).
Proof.
  induction 1 as [t f r F|t f t1 l r F I IH]; intros n fs L; (destruct n as [|n]; [lia|]); cbn [exp_loop];
    pose proof (edecl_len _ _ _ F) as LF; pose proof (edecl_head _ _ _ F) as (a & t' & ->); rewrite going_cons; cbn [negb orb rest];
    rewrite (exp_ok _ _ _ F); cbn [pbind].
  - cbn [next_is rest is_sym orb]. rewrite need_mk. cbn [andb okay ahead_if]. rewrite ahead1. cbn [length] in *.
    destruct n; [lia|]. cbn [exp_loop]. rewrite orb_true_r. reflexivity.
  - cbn [next_is rest is_sym orb]. rewrite need_mk. cbn [andb okay ahead_if]. rewrite ahead1. cbn [length] in *.
    rewrite IH by lia. rewrite <- app_assoc. reflexivity.
Qed.
Definition open_edecls (t : list token) : Prop := exists l r, pitems edecl t l r /\ open_edecl r.
Lemma exp_loop_class n : forall fs stop s, length (rest s) < n ->
  (exists fs' stop' s', exp_loop n fs stop s = POk (fs', stop', s')) \/ (exists e, exp_loop n fs stop s = PErr e) \/
  (exp_loop n fs stop s = PPanic /\ stop = false /\ okay s = true /\ open_edecls (rest s)).
Proof.
  induction n as [|n IH]; intros fs stop s L; [lia|]. cbn [exp_loop].
  destruct (negb (going s) || stop) eqn:Q; [left; do 3 eexists; reflexivity|].
  apply orb_false_iff in Q. destruct Q as [G ->]. rewrite negb_false_iff in G. apply going_true in G. destruct G as [OS NE].
  destruct (rest s) as [|[| |k|] r0] eqn:R; try (left; do 3 eexists; reflexivity).
  destruct (exp_class s) as [[[[f s1] F]|[e F]]|(F & _ & OE)].
  - rewrite F. cbn [pbind]. pose proof (exp_inv _ _ _ F) as (_ & O1 & FD). pose proof (edecl_len _ _ _ FD) as LF. rewrite R in *.
    set (e := next_is (is_sym SCloseParen) s1). set (c := next_is (is_sym SComma) s1).
    destruct (IH (fs ++ [f]) e (ahead_if (okay (need (c || e) s1)) (need (c || e) s1))) as [(a & b & s' & ->)|[[er ->]|(-> & ES & O2 & C)]].
    + destruct (okay (need (c || e) s1)); cbn; [destruct (rest s1); cbn in *; lia | lia].
    + left. do 3 eexists. reflexivity.
    + right. left. eexists. reflexivity.
    + right. right. split; [reflexivity|]. split; [reflexivity|]. split; [exact OS|].
      rewrite ES in *. rewrite orb_false_r in *. subst c. destruct (next_is (is_sym SComma) s1) eqn:CC.
      * apply next_sym in CC. destruct CC as (r & CC). cbn [need okay andb] in C. rewrite O1 in C. cbn in C. rewrite CC in *. cbn [skipn] in C.
        destruct C as (l & r2 & P & CD). exists (f :: l), r2. split; [|exact CD]. econstructor; eassumption.
      * cbn in O2. rewrite andb_false_r in O2. cbn in O2. rewrite andb_false_r in O2. discriminate O2.
  - right. left. rewrite F. eexists. reflexivity.
  - right. right. rewrite F. cbn. split; [reflexivity|]. split; [reflexivity|]. split; [exact OS|].
    rewrite R in OE. exists nil, (TId k :: r0). split; [constructor | exact OE].
Qed.
Lemma exp_fields_inv s l s' : exp_fields s = POk (l, s') -> rest s' = nil -> okay s = true -> exp_cols (rest s) l.
Proof.
  unfold exp_fields. destruct (remaining s <? 5); [discriminate|]. intros H R OS. destruct (rest s) as [|[[]| |k|] r] eqn:RS; try discriminate H.
  - apply pbind_ok in H. destruct H as ([[fs stop] s1] & E & H). destruct (okay (need stop s1)) eqn:O; [|discriminate H]. inj H.
    apply need_ok in O. destruct O as [O ->]. apply exp_loop_inv in E; [|exact O]. destruct E as (_ & l & -> & I).
    cbn [rest app need] in *. rewrite R in I. constructor. exact I.
  - apply pbind_ok in H. destruct H as ([f s1] & E & H). inj H. apply exp_inv in E. destruct E as (_ & _ & E). rewrite RS, R in E. constructor. exact E.
Qed.
Lemma exp_fields_ok t l : exp_cols t l -> exp_fields (mk_pst t true) = POk (l, mk_pst nil true).
Proof.
  intros [t0 f E|t0 l0 I]; unfold exp_fields, remaining; cbn [rest okay].
  - pose proof (edecl_head _ _ _ E) as (k & t' & ->).
    assert (L : length (TId k :: t') <? 5 = false).
    { apply Nat.ltb_ge. inversion E; subst; lia. }
    rewrite L, (exp_ok _ _ _ E). reflexivity.
  - assert (L : length (TSym SOpenParen :: t0) <? 5 = false).
    { apply Nat.ltb_ge. inversion I as [x f r F|x f x1 l1 r F I1]; subst; inversion F; subst; cbn [length] in *; lia. }
    rewrite L. rewrite (exp_loop_ok _ _ _ I) by (cbn; lia). cbn [pbind app]. rewrite need_mk. reflexivity.
Qed.
Definition open_cols (t : list token) : Prop := open_edecl t \/ exists t0, t = TSym SOpenParen :: t0 /\ open_edecls t0.
Lemma exp_fields_class s : sound (exp_fields s) \/ (exp_fields s = PPanic /\ open_cols (rest s)).
Proof.
  unfold exp_fields. destruct (remaining s <? 5); [left; right; eexists; reflexivity|].
  destruct (rest s) as [|[[]| |k|] r] eqn:RS; try (left; right; eexists; reflexivity).
  - destruct (exp_loop_class (S (remaining s)) nil false (mk_pst r (okay s))) as [(a & b & s' & E)|[[e E]|(E & _ & _ & C)]].
    { unfold remaining. rewrite RS. cbn. lia. }
    + rewrite E. cbn [pbind]. left. destruct (okay (need b s')); [left | right]; eexists; reflexivity.
    + rewrite E. left. right. eexists. reflexivity.
    + rewrite E. right. split; [reflexivity|]. right. cbn [rest] in C. eauto.
  - destruct (exp_class s) as [[[[f s1] F]|[e F]]|(F & _ & OE)]; rewrite F; cbn [pbind].
    + left. left. eexists. reflexivity.
    + left. right. eexists. reflexivity.
    + right. split; [reflexivity|]. left. rewrite RS in OE. exact OE.
Qed.

(** REMOVE *)
Lemma remove_loop_inv n : forall ks s ks' s', remove_loop n ks false s = POk (ks', true, s') -> okay s' = true ->
  okay s = true /\ exists l, ks' = ks ++ l /\ items column (rest s) l (rest s').
Proof.
  induction n as [|n IH]; intros fs s fs' s' H O; [discriminate H|]. cbn [remove_loop] in H.
  destruct (going s) eqn:G; cbn [negb orb] in H; [|discriminate H]. apply going_true in G. destruct G as [OS _]. split; [exact OS|].
  destruct (rest s) as [|[| |k|] r0] eqn:R; try discriminate H. rewrite OS in H.
  destruct (next_is (is_sym SCloseParen) (mk_pst r0 true)) eqn:E.
  - apply next_sym in E. destruct E as (r & E). cbn [rest] in E. subst r0. cbn [orb next_is rest is_sym] in H.
    rewrite need_mk in H. cbn [andb okay ahead_if] in H. rewrite ahead1 in H.
    destruct n; [discriminate H|]. cbn [remove_loop] in H. rewrite orb_true_r in H. injection H as <- <-.
    exists [k]. split; [reflexivity|]. constructor. constructor.
  - destruct (next_is (is_sym SComma) (mk_pst r0 true)) eqn:C.
    + apply next_sym in C. destruct C as (r & C). cbn [rest] in C. subst r0. cbn [orb] in H.
      rewrite need_mk in H. cbn [andb okay ahead_if] in H. rewrite ahead1 in H.
      apply IH in H; [|exact O]. destruct H as (_ & l & -> & I). exists (k :: l). rewrite <- app_assoc. split; [reflexivity|].
      econstructor; [constructor | exact I].
    + cbn [orb ahead_if] in H. rewrite need_mk in H. cbn [andb okay ahead_if] in H. destruct n; [discriminate H|]. cbn [remove_loop] in H.
      assert (GF : going (mk_pst r0 false) = false) by (unfold going; cbn; destruct r0; reflexivity).
      rewrite GF in H. cbn in H. discriminate H.
Qed.
Lemma remove_loop_ok t l r : items column t l r -> forall n fs, length t < n ->
  remove_loop n fs false (mk_pst t true) = POk (fs ++ l, true, mk_pst r true).
Proof.
  induction 1 as [t f r F|t f t1 l r F I IH]; intros n fs L; (destruct n as [|n]; [lia|]); cbn [remove_loop];
    inversion F; subst; rewrite going_cons; cbn [negb orb rest okay].
  - cbn [next_is rest is_sym orb]. rewrite need_mk. cbn [andb okay ahead_if]. rewrite ahead1. cbn [length] in *.
    destruct n; [lia|]. cbn [remove_loop]. rewrite orb_true_r. reflexivity.
  - cbn [next_is rest is_sym orb]. rewrite need_mk. cbn [andb okay ahead_if]. rewrite ahead1. cbn [length] in *.
    rewrite IH by lia. rewrite <- app_assoc. reflexivity.
Qed.
Lemma remove_loop_total n : forall ks stop s, length (rest s) < n -> exists ks' stop' s', remove_loop n ks stop s = POk (ks', stop', s').
Proof.
  induction n as [|n IH]; intros ks stop s L; [lia|]. cbn [remove_loop].
  destruct (negb (going s) || stop); [do 3 eexists; reflexivity|].
  destruct (rest s) as [|[| |k|] r0] eqn:R; try (do 3 eexists; reflexivity).
  apply IH. match goal with |- context [ahead_if ?b ?x] => destruct b end; cbn in *; [destruct r0; cbn in *; lia | lia].
Qed.
Lemma alter_remove_inv s k s' : alter_remove s = POk (k, s') -> rest s' = nil -> exists l, k = AkRemove l /\ rem_cols (rest s) l.
Proof.
  unfold alter_remove. intros H R. destruct (rest s) as [|[[]| |x|] r] eqn:RS; try discriminate H.
  - apply pbind_ok in H. destruct H as ([[fs stop] s1] & E & H). destruct (okay (need stop s1)) eqn:O; [|discriminate H]. inj H.
    apply need_ok in O. destruct O as [O ->]. apply remove_loop_inv in E; [|exact O]. destruct E as (_ & l & -> & I).
    cbn [rest app need] in *. rewrite R in I. exists l. split; [reflexivity|]. constructor. exact I.
  - inj H. cbn in R. subst r. exists [x]. split; [reflexivity | constructor].
Qed.
Lemma alter_remove_ok t l : rem_cols t l -> alter_remove (mk_pst t true) = POk (AkRemove l, mk_pst nil true).
Proof.
  intros [k|t0 l0 I]; [reflexivity|]. unfold alter_remove, remaining. cbn [rest okay].
  rewrite (remove_loop_ok _ _ _ I) by (cbn; lia). cbn [pbind app]. rewrite need_mk. reflexivity.
Qed.
Lemma alter_remove_sound s : sound (alter_remove s).
Proof.
  unfold alter_remove. destruct (rest s) as [|[[]| |x|] r] eqn:RS; try (right; eexists; reflexivity); [|left; eexists; reflexivity].
  destruct (remove_loop_total (S (remaining s)) nil false (mk_pst r (okay s))) as (a & b & s' & E).
  { unfold remaining. rewrite RS. cbn. lia. }
  rewrite E. cbn [pbind]. destruct (okay (need b s')); [left | right]; eexists; reflexivity.
Qed.
