(** Proofs about the parsers of dictionaries, types and columns. *)
From Coq Require Import Strings.String List NArith Bool Arith Lia.
From Verif Require Import Bytes DataModel CodecModel TypeModel GnsModel RowModel LexModel LexSpec LexProofs
  ParseModel ParseSpec ParseProofs DdlModel DdlSpec.
Import ListNotations.

Scheme dent_mut := Minimality for dent Sort Prop
with dbody_mut := Minimality for dbody Sort Prop
with dtail_mut := Minimality for dtail Sort Prop.
Combined Scheme dict_mut from dent_mut, dbody_mut, dtail_mut.

Lemma dict_len :
  (forall t x r, dent t x r -> length r < length t) /\
  (forall t d r, dbody t d r -> length r < length t) /\
  (forall t d r, dtail t d r -> length r < length t).
Proof. apply dict_mut; intros; cbn [length] in *; lia. Qed.
Lemma dent_len t x r : dent t x r -> length r < length t.
Proof. apply dict_len. Qed.
Lemma dbody_len t d r : dbody t d r -> length r < length t.
Proof. apply dict_len. Qed.
Lemma dtail_len t d r : dtail t d r -> length r < length t.
Proof. apply dict_len. Qed.
Lemma dpre_len t d r : dpre t d r -> length r <= length t.
Proof. induction 1; [lia|]. apply dent_len in H. cbn in H. lia. Qed.
Lemma lyr_len t l r : lyr t l r -> length r < length t.
Proof.
  induction 1 as [ty r N|ty t d r B ND|ty t d1 t1 ls t2 d2 r P L IH D ND]; cbn [length] in *.
  - lia.
  - apply dbody_len in B. lia.
  - apply dpre_len in P. apply dtail_len in D. cbn [length] in P. lia.
Qed.

Lemma fresh_iff k (d : dict) : fresh k d = true <-> ~ In k (keys d).
Proof. unfold fresh. rewrite negb_true_iff. apply has_key_not. Qed.
Lemma is_type_kw t : is_misc KmType t = true -> t = kmis KmType.
Proof. apply is_misc_eq. Qed.

(* ------------------------------------------------------------------ *)
(** * Dictionaries *)

(** what the loop reads from each of its states; [b]: up to the word [type] *)
Definition dcont (b : bool) (t : list token) (e : dict) (r : list token) : Prop :=
  if b then dpre t e (kmis KmType :: r) else dbody t e r.
Definition dafter (b : bool) (t : list token) (e : dict) (r : list token) : Prop :=
  if b then exists t', t = TSym SComma :: t' /\ dpre t' e (kmis KmType :: r) else dtail t e r.
Definition drel (m : dstate) (b : bool) (t : list token) (e : dict) (r : list token) : Prop :=
  match m with
  | DsOb => exists t', t = TSym SOpenBrace :: t' /\ dcont b t' e r
  | DsKey => dcont b t e r
  | DsColon k => exists x t1 e', e = x :: e' /\ fst x = k /\ dent (TId k :: t) x t1 /\ dafter b t1 e' r
  | DsVal k => exists x t1 e', e = x :: e' /\ fst x = k /\ dent (TId k :: TSym SColon :: t) x t1 /\ dafter b t1 e' r
  | DsComma => dafter b t e r
  end.
Lemma dcont_cons b t x t1 e r : dent t x t1 -> dafter b t1 e r -> dcont b t (x :: e) r.
Proof.
  intros D A. destruct b; cbn in *.
  - destruct A as (t' & -> & A). econstructor; eassumption.
  - econstructor; eassumption.
Qed.
Lemma dent_head t x r : dent t x r -> exists t', t = TId (fst x) :: TSym SColon :: t'.
Proof. intros H. destruct H; eexists; reflexivity. Qed.
Lemma dcont_inv b t e r : dcont b t e r ->
  (e = [] /\ b = true /\ t = kmis KmType :: r) \/ (e = [] /\ b = false /\ t = TSym SCloseBrace :: r) \/
  exists x t1 e', e = x :: e' /\ dent t x t1 /\ dafter b t1 e' r.
Proof.
  intros D. destruct b; cbn in *.
  - inversion D as [t0 E1 E2 E3|t0 x t1 d r0 X P E1 E2 E3]; subst; [auto|]. right. right.
    exists x, (TSym SComma :: t1), d. split; [reflexivity|]. split; [exact X|]. eexists. split; [reflexivity | exact P].
  - inversion D as [r0 E1 E2 E3|t0 x t1 d r0 X P E1 E2 E3]; subst; [auto|]. right. right. eauto 6.
Qed.
Lemma dcont_len b t e r : dcont b t e r -> length r < length t.
Proof. destruct b; cbn; [|apply dbody_len]. intros D. apply dpre_len in D. cbn in D. lia. Qed.
Lemma dafter_len b t e r : dafter b t e r -> length r < length t.
Proof. destruct b; cbn; [|apply dtail_len]. intros (t' & -> & D). apply dpre_len in D. cbn in *. lia. Qed.

Lemma dict_stop n bp m d s : going s = false -> dict_loop (S n) bp m d s = POk (false, d, poison s).
Proof. intros G. cbn [dict_loop]. rewrite G. reflexivity. Qed.
Lemma going_false s : going s = false -> okay s = true -> rest s = nil.
Proof. unfold going. destruct (rest s); [reflexivity | congruence]. Qed.

Definition ends_dict (m : dstate) : bool := match m with DsKey | DsComma => true | _ => false end.

Lemma nd_cons (d : dict) x e : NoDup (keys (d ++ x :: e)) -> ~ In (fst x) (keys d) /\ NoDup (keys ((d ++ [x]) ++ e)).
Proof.
  intros ND. split.
  - rewrite keys_app in ND. cbn in ND. apply NoDup_remove_2 in ND. intros I. apply ND. apply in_or_app. left. exact I.
  - rewrite <- app_assoc. exact ND.
Qed.

Lemma dict_inv n : forall bp m d s b d' s', dict_loop n bp m d s = POk (b, d', s') -> okay s' = true ->
  okay s = true /\ (b = true -> bp = true) /\ exists e, d' = d ++ e /\ (NoDup (keys d) -> NoDup (keys d')) /\ drel m b (rest s) e (rest s').
Proof.
  induction n as [|n IH]; intros bp m d s b d' s' H O; [discriminate H|].
  destruct (going s) eqn:G.
  2:{ rewrite (dict_stop n bp m d s G) in H. injection H as <- <- <-. discriminate O. }
  cbn [dict_loop] in H. rewrite G in H. cbn [negb] in H.
  destruct (rest s) as [|t r] eqn:R; [discriminate H|].
  assert (OS : okay s = true) by (unfold going in G; rewrite R in G; exact G). rewrite OS in H.
  assert (OTHER : match m, bp && is_misc KmType t with DsKey, true => POk (true, d, mk_pst r true) | _, _ => POk (false, d, poison s) end = POk (b, d', s') ->
     okay s = true /\ (b = true -> bp = true) /\ exists e, d' = d ++ e /\ (NoDup (keys d) -> NoDup (keys d')) /\ drel m b (t :: r) e (rest s')).
  { intros E. destruct m; try (injection E as <- <- <-; discriminate O).
    destruct bp; cbn [andb] in E; [|injection E as <- <- <-; discriminate O].
    destruct (is_misc KmType t) eqn:IT; [|injection E as <- <- <-; discriminate O].
    injection E as <- <- <-. apply is_type_kw in IT. subst t. split; [exact OS|]. split; [auto|]. exists nil.
    rewrite app_nil_r. split; [reflexivity|]. split; [auto|]. cbn. constructor. }
  assert (NEXT : forall m1 d1 s1, dict_loop n bp m1 d1 s1 = POk (b, d', s') ->
     okay s1 = true /\ (b = true -> bp = true) /\ exists e, d' = d1 ++ e /\ (NoDup (keys d1) -> NoDup (keys d')) /\ drel m1 b (rest s1) e (rest s')).
  { intros m1 d1 s1 E. apply (IH _ _ _ _ _ _ _ E O). }
  assert (VAL : forall k v t1, dict_loop n bp DsComma (d ++ [(k, v)]) (need (fresh k d) (mk_pst t1 true)) = POk (b, d', s') ->
     m = DsVal k -> dent (TId k :: TSym SColon :: t :: r) (k, v) t1 ->
     okay s = true /\ (b = true -> bp = true) /\ exists e, d' = d ++ e /\ (NoDup (keys d) -> NoDup (keys d')) /\ drel m b (t :: r) e (rest s')).
  { intros k v t1 E -> DE. apply NEXT in E. destruct E as (O1 & BB & e & -> & ND & DR). rewrite need_mk in O1.
    cbn in O1. apply fresh_iff in O1. split; [exact OS|]. split; [exact BB|].
    exists ((k, v) :: e). rewrite <- app_assoc in *. split; [reflexivity|]. split.
    - intros N. apply ND. rewrite keys_app. apply nodup_snoc; auto.
    - cbn. exists (k, v), t1, e. cbn in DR. auto. }

  assert (FIN : POk (false, d, mk_pst r true) = POk (b, d', s') -> t = TSym SCloseBrace -> ends_dict m = true ->
     okay s = true /\ (b = true -> bp = true) /\ exists e, d' = d ++ e /\ (NoDup (keys d) -> NoDup (keys d')) /\ drel m b (t :: r) e (rest s')).
  { intros E -> EM. injection E as <- <- <-. split; [exact OS|]. split; [discriminate|]. exists nil. rewrite app_nil_r.
    split; [reflexivity|]. split; [auto|]. destruct m; try discriminate EM; cbn; constructor. }
  assert (STEP : forall m1, dict_loop n bp m1 d (mk_pst r true) = POk (b, d', s') ->
     (forall e, drel m1 b r e (rest s') -> drel m b (t :: r) e (rest s')) ->
     okay s = true /\ (b = true -> bp = true) /\ exists e, d' = d ++ e /\ (NoDup (keys d) -> NoDup (keys d')) /\ drel m b (t :: r) e (rest s')).
  { intros m1 E IMP. apply NEXT in E. destruct E as (_ & BB & e & -> & ND & DR). split; [exact OS|]. split; [exact BB|].
    exists e. split; [reflexivity|]. split; [exact ND|]. apply IMP. exact DR. }
  destruct m as [| |k|k|].
  - destruct t as [[]|[k0|[]]|w|l]; try (apply OTHER; exact H). apply (STEP _ H). intros e DR. cbn. eauto.
  - destruct t as [[]|[k0|[]]|w|l]; try (apply OTHER; exact H); [apply (FIN H); reflexivity|].
    apply (STEP _ H). intros e (x & t1 & e' & -> & _ & DE & DA). cbn. eapply dcont_cons; eassumption.
  - destruct t as [[]|[k0|[]]|w|l]; try (apply OTHER; exact H). apply (STEP _ H). intros e DR. exact DR.
  - destruct t as [[]|[k0|[]]|w|l]; try (apply OTHER; exact H).
    + apply pbind_ok in H. destruct H as ([[b0 nd] s2] & E & H).
      assert (O2 : okay s2 = true).
      { apply NEXT in H. destruct H as (O2 & _). apply need_ok in O2. tauto. }
      apply IH in E; [|exact O2]. destruct E as (_ & BB & e & -> & ND & DR). cbn [app] in *.
      destruct b0; [specialize (BB eq_refl); discriminate BB|].
      assert (ES : s2 = mk_pst (rest s2) true) by (destruct s2; cbn in O2; subst; reflexivity). rewrite ES in H.
      apply (VAL k (DMap e) (rest s2) H eq_refl). constructor; [exact DR | apply ND; constructor].
    + apply (VAL k (DData CNull) r H eq_refl). constructor.
    + apply (VAL k _ r H eq_refl). constructor.
  - destruct t as [[]|[k0|[]]|w|l]; try (apply OTHER; exact H); [apply (FIN H); reflexivity|].
    apply (STEP _ H). intros e DR. cbn in *. destruct b; cbn in *; [eauto | constructor; exact DR].
Qed.

Lemma dict_step n bp m d t r : dict_loop (S n) bp m d (mk_pst (t :: r) true) =
  let s1 := mk_pst r true in
  let other := match m, bp && is_misc KmType t with
    | DsKey, true => POk (true, d, s1) | _, _ => POk (false, d, poison (mk_pst (t :: r) true)) end in
  match t, m with
  | TSym SOpenBrace, DsOb => dict_loop n bp DsKey d s1
  | TSym SCloseBrace, DsKey => POk (false, d, s1)
  | TSym SCloseBrace, DsComma => POk (false, d, s1)
  | TId k, DsKey => dict_loop n bp (DsColon k) d s1
  | TSym SColon, DsColon k => dict_loop n bp (DsVal k) d s1
  | TLit l, DsVal k => dict_loop n bp DsComma (d ++ [(k, DData (lit_cell l))]) (need (fresh k d) s1)
  | TKw (KMisc KmNull), DsVal k => dict_loop n bp DsComma (d ++ [(k, DData CNull)]) (need (fresh k d) s1)
  | TSym SOpenBrace, DsVal k =>
      pbind (dict_loop n false DsKey nil s1) (fun '(_, nd, s2) =>
        dict_loop n bp DsComma (d ++ [(k, DMap nd)]) (need (fresh k d) s2))
  | TSym SComma, DsComma => dict_loop n bp DsKey d s1
  | _, _ => other
  end.
Proof. reflexivity. Qed.

Lemma dict_ok n : forall bp m b d t e r, drel m b t e r -> (b = true -> bp = true) -> NoDup (keys (d ++ e)) ->
  length t < n -> dict_loop n bp m d (mk_pst t true) = POk (b, d ++ e, mk_pst r true).
Proof.
  induction n as [|n IH]; intros bp m b d t e r D BB ND L; [lia|].
  assert (VAL : forall k v t1 e', dafter b t1 e' r -> e = (k, v) :: e' -> length t1 < n ->
     dict_loop n bp DsComma (d ++ [(k, v)]) (need (fresh k d) (mk_pst t1 true)) = POk (b, d ++ e, mk_pst r true)).
  { intros k v t1 e' A -> L1. apply nd_cons in ND. destruct ND as [NI ND]. cbn [fst] in NI. apply fresh_iff in NI. rewrite NI.
    rewrite need_mk. cbn [andb]. rewrite (IH bp DsComma b (d ++ [(k, v)]) t1 e' r A BB ND L1). rewrite <- app_assoc. reflexivity. }
  destruct m as [| |k|k|]; cbn [drel] in D.
  - destruct D as (t' & -> & D). rewrite dict_step. cbn [length] in L. apply IH; auto. lia.
  - apply dcont_inv in D. destruct D as [(-> & -> & ->)|[(-> & -> & ->)|(x & t1 & e' & -> & DE & DA)]].
    + rewrite dict_step. rewrite (BB eq_refl). cbn. rewrite app_nil_r. reflexivity.
    + rewrite dict_step. cbn. rewrite app_nil_r. reflexivity.
    + pose proof (dent_head _ _ _ DE) as (t' & ->). rewrite dict_step. cbn [length] in L.
      apply IH; auto; [|cbn [length]; lia]. cbn. exists x, t1, e'. destruct x. auto.
  - destruct D as (x & t1 & e' & -> & <- & DE & DA). pose proof (dent_head _ _ _ DE) as (t' & E). injection E as ->.
    rewrite dict_step. cbn [length] in L. apply IH; auto; [|lia]. cbn. exists x, t1, e'. auto.
  - destruct D as ([k0 v0] & t1 & e' & -> & KE & DE & DA). cbn [fst] in KE. pose proof (dent_len _ _ _ DE) as LE. cbn [length] in LE.
    inversion DE as [k1 l r0 E1 E2 E3|k1 r0 E1 E2 E3|k1 t0 nd r0 B N E1 E2 E3]; subst; cbn [fst] in *; rewrite dict_step.
    + cbn [length] in *. eapply VAL; [exact DA | reflexivity | lia].
    + cbn [length] in *. unfold kmis. cbn [is_misc]. eapply VAL; [exact DA | reflexivity | lia].
    + cbn [length] in *. cbn zeta. rewrite (IH false DsKey false nil t0 nd t1); [|exact B|auto|exact N|lia].
      cbn [app pbind]. eapply VAL; [exact DA | reflexivity|]. apply dbody_len in B. lia.
  - destruct b; cbn in D.
    + destruct D as (t' & -> & D). rewrite dict_step. cbn [length] in L. apply IH; auto. lia.
    + inversion D as [r0 E1 E2 E3|t0 d0 r0 B E1 E2 E3]; subst; rewrite dict_step.
      * cbn. rewrite app_nil_r. reflexivity.
      * cbn [length] in L. apply IH; auto. lia.
Qed.

Lemma dict_total n : forall bp m d s, length (rest s) < n ->
  exists b d' s', dict_loop n bp m d s = POk (b, d', s') /\ length (rest s') <= length (rest s) /\ (okay s' = true -> okay s = true).
Proof.
  induction n as [|n IH]; intros bp m d s L; [lia|].
  destruct (going s) eqn:G.
  2:{ rewrite (dict_stop n bp m d s G). do 3 eexists. split; [reflexivity|]. cbn. split; [lia | discriminate]. }
  destruct s as [[|t r] o]; [discriminate G|]. cbn in G. subst o. rewrite dict_step. cbn [rest length] in *.
  assert (OTHER : exists b d' s', match m, bp && is_misc KmType t with
    | DsKey, true => POk (true, d, mk_pst r true) | _, _ => POk (false, d, poison (mk_pst (t :: r) true)) end = POk (b, d', s') /\
     length (rest s') <= S (length r) /\ (okay s' = true -> true = true)).
  { destruct m; [| destruct (bp && is_misc KmType t)|..]; do 3 eexists; (split; [reflexivity|]); cbn; (split; [lia | auto]). }
  assert (NEXT : forall m d s1, length (rest s1) <= length r -> exists b d' s', dict_loop n bp m d s1 = POk (b, d', s') /\
     length (rest s') <= S (length r) /\ (okay s' = true -> true = true)).
  { intros m1 d1 s1 L1. destruct (IH bp m1 d1 s1 ltac:(lia)) as (b & d' & s' & E & L2 & _).
    do 3 eexists. split; [exact E|]. split; [lia | auto]. }
  assert (FIN : exists b d' s', POk (false, d, mk_pst r true) = POk (b, d', s') /\
     length (rest s') <= S (length r) /\ (okay s' = true -> true = true)).
  { do 3 eexists. split; [reflexivity|]. cbn. split; [lia | auto]. }
  cbn zeta.
  destruct m as [| |k|k|]; destruct t as [[]|[k0|[]]|w|l]; try exact OTHER; try exact FIN; try (apply NEXT; cbn; lia).
  destruct (IH false DsKey nil (mk_pst r true)) as (b & d' & s' & E & L2 & _); [cbn; lia|]. rewrite E. cbn [pbind].
  apply NEXT. cbn in *. exact L2.
Qed.

Lemma fold_dict_inv m d s d' s' : fold_dict m d s = POk (d', s') -> okay s' = true ->
  okay s = true /\ exists e, d' = d ++ e /\ (NoDup (keys d) -> NoDup (keys d')) /\ drel m false (rest s) e (rest s').
Proof.
  unfold fold_dict. intros H O. apply pbind_ok in H. destruct H as ([[b d0] s0] & E & H). injection H as <- <-.
  apply dict_inv in E; [|exact O]. destruct E as (OS & BB & e & -> & ND & DR). split; [exact OS|].
  destruct b; [specialize (BB eq_refl); discriminate BB|]. eauto.
Qed.
Lemma fold_dict_ok m d t e r : drel m false t e r -> NoDup (keys (d ++ e)) ->
  fold_dict m d (mk_pst t true) = POk (d ++ e, mk_pst r true).
Proof.
  intros D ND. unfold fold_dict, remaining. cbn [rest]. rewrite (dict_ok _ false m false d t e r D); auto; discriminate.
Qed.
Lemma fold_dict_total m d s : exists d' s', fold_dict m d s = POk (d', s') /\ length (rest s') <= length (rest s) /\
  (okay s' = true -> okay s = true).
Proof.
  unfold fold_dict, remaining. destruct (dict_total (S (length (rest s))) false m d s) as (b & d' & s' & E & L & O); [lia|].
  rewrite E. cbn. eauto.
Qed.
Lemma tymeta_inv d s b d' s' : fold_tymeta d s = POk (b, d', s') -> okay s' = true ->
  okay s = true /\ exists e, d' = d ++ e /\ (NoDup (keys d) -> NoDup (keys d')) /\ dcont b (rest s) e (rest s').
Proof. intros H O. apply dict_inv in H; [|exact O]. destruct H as (OS & BB & H). auto. Qed.
Lemma tymeta_ok b d t e r : dcont b t e r -> NoDup (keys (d ++ e)) ->
  fold_tymeta d (mk_pst t true) = POk (b, d ++ e, mk_pst r true).
Proof. intros D ND. unfold fold_tymeta, remaining. cbn [rest]. apply dict_ok; auto. Qed.
Lemma tymeta_total d s : exists b d' s', fold_tymeta d s = POk (b, d', s') /\ length (rest s') <= length (rest s) /\
  (okay s' = true -> okay s = true).
Proof. unfold fold_tymeta, remaining. apply dict_total. lia. Qed.

(* ------------------------------------------------------------------ *)
(** * Types *)

Lemma going_true s : going s = true -> okay s = true /\ rest s <> nil.
Proof. unfold going. destruct (rest s); [discriminate | intros ->; split; [reflexivity | discriminate]]. Qed.

(** the layers with a nested type *)
Definition after_type (n : nat) (ls : list layer_spec) (ty : bytes) (props : dict) (s2 : pst) : pres (list layer_spec * pst) :=
  let s3 := need (next_is (is_sym SColon) s2) s2 in
  let s4 := ahead_if (okay s3) s3 in
  pbind (fold_layers n ls s4) (fun '(ls', s5) =>
  if negb (going s5) then POk (ls', poison s5)
  else
    match rest s5 with
    | TSym SCloseBrace :: r6 => POk (ls' ++ [mk_ls ty props], mk_pst r6 (okay s5))
    | TSym SComma :: r6 =>
        pbind (fold_dict DsKey props (mk_pst r6 (okay s5))) (fun '(props', s7) =>
        if okay s7 then POk (ls' ++ [mk_ls ty props'], s7) else POk (ls', poison s7))
    | _ => POk (ls', poison s5)
    end).
Lemma layers_step n ls s : fold_layers (S n) ls s =
  if negb (going s) then POk (ls, poison s)
  else
    match rest s with
    | TId ty :: TSym SOpenBrace :: r =>
        pbind (fold_tymeta nil (mk_pst r true)) (fun '(more, props, s2) =>
        if more then after_type n ls ty props s2
        else if okay s2 then POk (ls ++ [mk_ls ty props], s2) else POk (ls, poison s2))
    | TId ty :: r => POk (ls ++ [mk_ls ty nil], mk_pst r (okay s))
    | _ => POk (ls, poison s)
    end.
Proof. reflexivity. Qed.

Lemma ob_dec (r : list token) : (exists r', r = TSym SOpenBrace :: r') \/ (forall r', r <> TSym SOpenBrace :: r').
Proof. destruct r as [|[[]| | |] r]; try (left; eauto; fail); right; discriminate. Qed.
Lemma layers_plain ls ty r o : (forall r', r <> TSym SOpenBrace :: r') ->
  match TId ty :: r with
  | TId ty :: TSym SOpenBrace :: r =>
        pbind (fold_tymeta nil (mk_pst r true)) (fun '(more, props, s2) =>
        if more then after_type 0 ls ty props s2
        else if okay s2 then POk (ls ++ [mk_ls ty props], s2) else POk (ls, poison s2))
  | TId ty :: r => POk (ls ++ [mk_ls ty nil], mk_pst r o)
  | _ => PFuel
  end = POk (ls ++ [mk_ls ty nil], mk_pst r o).
Proof. intros N. destruct r as [|[[]| | |] r]; try reflexivity. exfalso. eapply N. reflexivity. Qed.

Lemma layers_inv n : forall ls s ls' s', fold_layers n ls s = POk (ls', s') -> okay s' = true ->
  okay s = true /\ exists l, ls' = ls ++ l /\ lyr (rest s) l (rest s').
Proof.
  induction n as [|n IH]; intros ls s ls' s' H O; [discriminate H|]. rewrite layers_step in H.
  destruct (going s) eqn:G; cbn [negb] in H.
  2:{ injection H as <- <-. discriminate O. }
  apply going_true in G. destruct G as [OS NE]. split; [exact OS|].
  destruct (rest s) as [|t r] eqn:R; [congruence|].
  destruct t as [x|x|ty|x]; try (injection H as <- <-; discriminate O).
  destruct (ob_dec r) as [(r1 & ->)|N].
  - apply pbind_ok in H. destruct H as ([[more props] s2] & E & H).
    destruct more.
    + unfold after_type in H. cbn zeta in H. apply pbind_ok in H. destruct H as ([ls1 s5] & F & H).
      assert (O5 : okay s5 = true /\ exists d2, ls' = ls1 ++ [mk_ls ty (props ++ d2)] /\ dtail (rest s5) d2 (rest s') /\
         (NoDup (keys props) -> NoDup (keys (props ++ d2)))).
      { destruct (going s5) eqn:G5; cbn [negb] in H; [|injection H as <- <-; discriminate O].
        apply going_true in G5. destruct G5 as [O5 _]. split; [exact O5|].
        destruct (rest s5) as [|[[]| | |] r6]; try (injection H as <- <-; discriminate O).
        - injection H as <- <-. exists nil. rewrite app_nil_r. split; [reflexivity|]. split; [constructor | auto].
        - apply pbind_ok in H. destruct H as ([props' s7] & E7 & H). destruct (okay s7) eqn:O7.
          + injection H as <- <-. apply fold_dict_inv in E7; [|exact O7]. destruct E7 as (_ & e & -> & ND & DR).
            exists e. split; [reflexivity|]. split; [constructor; exact DR | exact ND].
          + injection H as <- <-. discriminate O. }
      destruct O5 as (O5 & d2 & -> & DT & ND2). apply IH in F; [|exact O5]. destruct F as (O4 & l & -> & LY).
      set (s3 := need (next_is (is_sym SColon) s2) s2) in *.
      assert (O3 : okay s3 = true) by (unfold ahead_if in O4; destruct (okay s3) eqn:X; [reflexivity | congruence]).
      rewrite O3 in LY. subst s3. apply need_ok in O3. destruct O3 as [O2 NX]. apply next_sym in NX. destruct NX as (t1 & R2).
      cbn [ahead_if ahead need rest] in LY. rewrite R2 in LY. cbn [skipn] in LY.
      apply tymeta_inv in E; [|exact O2]. destruct E as (_ & e & -> & ND & DC). cbn [app dcont rest] in *. rewrite R2 in DC.
      exists (l ++ [mk_ls ty (e ++ d2)]). rewrite <- app_assoc. split; [reflexivity|].
      eapply ly_type; [exact DC | exact LY | exact DT | apply ND2, ND; constructor].
    + destruct (okay s2) eqn:O2; [|injection H as <- <-; discriminate O]. injection H as <- <-.
      apply tymeta_inv in E; [|exact O2]. destruct E as (_ & e & -> & ND & DC). cbn [app dcont rest] in *.
      exists [mk_ls ty e]. split; [reflexivity|]. constructor; [exact DC | apply ND; constructor].
  - assert (H2 : POk (ls ++ [mk_ls ty nil], mk_pst r (okay s)) = POk (ls', s')).
    { rewrite <- H. destruct r as [|[[]| | |] r]; try reflexivity. exfalso. eapply N. reflexivity. }
    injection H2 as <- <-. exists [mk_ls ty nil]. split; [reflexivity|]. constructor. exact N.
Qed.

Lemma layers_ok t l r : lyr t l r -> forall n ls, length t < n ->
  fold_layers n ls (mk_pst t true) = POk (ls ++ l, mk_pst r true).
Proof.
  induction 1 as [ty r N|ty t d r B ND|ty t d1 t1 ls0 t2 d2 r P LY IH D ND]; intros n ls L; (destruct n as [|n]; [lia|]);
    rewrite layers_step; cbn [going rest okay negb].
  - destruct r as [|[[]| | |] r]; try reflexivity. exfalso. eapply N. reflexivity.
  - rewrite (tymeta_ok false nil t d r B ND). cbn [pbind okay app]. reflexivity.
  - assert (ND1 : NoDup (keys ([] ++ d1))).
    { cbn. rewrite map_app in ND. clear -ND. unfold keys. induction (map fst d1) as [|x l IHl]; [constructor|].
      cbn in ND. inversion ND; subst. constructor; [|auto]. intros I. apply H1. apply in_or_app. auto. }
    rewrite (tymeta_ok true nil t d1 (TSym SColon :: t1) P ND1). cbn [pbind app].
    unfold after_type, next_is. cbn [rest is_sym]. rewrite need_mk. cbn [andb okay ahead_if]. unfold ahead. cbn [rest okay skipn].
    pose proof (dpre_len _ _ _ P) as LP. cbn [length] in *. rewrite (IH n ls) by lia. cbn [pbind].
    inversion D as [r0 E1 E2 E3|t0 d0 r0 B E1 E2 E3]; subst.
    + cbn [going rest okay negb]. rewrite app_nil_r, app_assoc. reflexivity.
    + cbn [going rest okay negb]. rewrite (fold_dict_ok DsKey d1 t0 d2 r B ND). cbn [pbind okay]. rewrite app_assoc. reflexivity.
Qed.
Lemma layers_total n : forall ls s, length (rest s) < n ->
  exists l s', fold_layers n ls s = POk (l, s') /\ length (rest s') <= length (rest s) /\ (okay s' = true -> okay s = true).
Proof.
  induction n as [|n IH]; intros ls s L; [lia|]. rewrite layers_step.
  assert (DEAD : exists l s', POk (ls, poison s) = @POk (list layer_spec * pst) (l, s') /\ length (rest s') <= length (rest s) /\ (okay s' = true -> okay s = true)).
  { do 2 eexists. split; [reflexivity|]. cbn. split; [lia | discriminate]. }
  destruct (going s) eqn:G; cbn [negb]; [|exact DEAD].
  apply going_true in G. destruct G as [OS NE]. rewrite OS. destruct (rest s) as [|t r] eqn:R; [congruence|].
  destruct t as [x|x|ty|x]; try (rewrite OS in DEAD; exact DEAD).
  destruct (ob_dec r) as [(r1 & ->)|N].
  - destruct (tymeta_total nil (mk_pst r1 true)) as (b & d' & s2 & E & L2 & _). rewrite E. cbn [pbind rest length] in *.
    destruct b.
    + unfold after_type. cbn zeta. set (s4 := ahead_if _ _).
      assert (L4 : length (rest s4) <= length (rest s2)).
      { subst s4. unfold ahead_if. destruct (okay (need (next_is (is_sym SColon) s2) s2)); cbn [ahead need rest]; [|lia].
        destruct (rest s2); cbn; lia. }
      destruct (IH ls s4 ltac:(lia)) as (l & s5 & E5 & L5 & _). rewrite E5. cbn [pbind].
      destruct (going s5); cbn [negb]; [|do 2 eexists; (split; [reflexivity|]); cbn; split; [lia | auto]].
      destruct (rest s5) as [|[[]| | |] r6] eqn:R5;
        try (do 2 eexists; (split; [reflexivity|]); cbn; rewrite ?R5; cbn in *; split; [lia | auto]; fail).
      destruct (fold_dict_total DsKey d' (mk_pst r6 (okay s5))) as (d7 & s7 & E7 & L7 & _). rewrite E7. cbn [pbind].
      destruct (okay s7); (do 2 eexists; (split; [reflexivity|]); cbn in *; split; [lia | auto]).
    + destruct (okay s2); (do 2 eexists; (split; [reflexivity|]); cbn in *; split; [lia | auto]).
  - do 2 eexists. split.
    + instantiate (1 := mk_pst r true). instantiate (1 := ls ++ [mk_ls ty nil]).
      destruct r as [|[[]| | |] r]; try reflexivity. exfalso. eapply N. reflexivity.
    + cbn. split; [lia | auto].
Qed.
Lemma layers_ok' t l r : lyr t l r -> layers (mk_pst t true) = POk (l, mk_pst r true).
Proof. intros H. unfold layers, remaining. cbn [rest]. rewrite (layers_ok _ _ _ H) by lia. reflexivity. Qed.
Lemma layers_inv' s l s' : layers s = POk (l, s') -> okay s' = true -> okay s = true /\ lyr (rest s) l (rest s').
Proof. intros H O. apply layers_inv in H; [|exact O]. destruct H as (OS & l0 & -> & LY). auto. Qed.
