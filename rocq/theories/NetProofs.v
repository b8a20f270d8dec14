(** Proofs about the wire protocol (NetModel). *)
From Coq Require Import Strings.String List Arith NArith ZArith Lia Bool.
From Verif Require Import Bytes DataModel NumModel NumProofs NetModel.
Import ListNotations.
Local Open Scope N_scope.

Lemma len_app a b : len (a ++ b) = len a + len b.
Proof. unfold len. rewrite app_length, Nat2N.inj_add. reflexivity. Qed.
Lemma len_cons a b : len (a :: b) = 1 + len b.
Proof. unfold len. cbn [List.length]. rewrite Nat2N.inj_succ. lia. Qed.
Lemma len_nil : len [] = 0.
Proof. reflexivity. Qed.

Lemma takeN_app k a b x r : takeN k a = Some (x, r) -> takeN k (a ++ b) = Some (x, r ++ b).
Proof.
  unfold takeN. destruct (N.leb_spec k (len a)); [|discriminate].
  intros E. injection E as <- <-. rewrite len_app. destruct (N.leb_spec k (len a + len b)); [|lia].
  assert (N.to_nat k <= List.length a)%nat by (unfold len in H; lia).
  rewrite firstn_app, skipn_app. replace (N.to_nat k - List.length a)%nat with 0%nat by lia.
  rewrite firstn_O, skipn_O, app_nil_r. reflexivity.
Qed.

Lemma takeN_exact a b : takeN (len a) (a ++ b) = Some (a, b).
Proof.
  unfold takeN. rewrite len_app. destruct (N.leb_spec (len a) (len a + len b)); [|lia].
  unfold len. rewrite Nat2N.id, firstn_app, skipn_app, Nat.sub_diag, firstn_all, skipn_all.
  rewrite firstn_O, skipn_O, app_nil_r. reflexivity.
Qed.

Lemma takeN_inv k a x r : takeN k a = Some (x, r) -> a = x ++ r /\ len x = k.
Proof.
  unfold takeN. destruct (N.leb_spec k (len a)); [|discriminate].
  intros E. injection E as <- <-. rewrite firstn_skipn. split; [reflexivity|].
  unfold len in *. rewrite firstn_length. lia.
Qed.

Lemma takeN_none k a : takeN k a = None <-> len a < k.
Proof. unfold takeN. destruct (N.leb_spec k (len a)); split; intros; try discriminate; try lia; auto. Qed.

(* ------------------------------------------------------------------ *)
(** * Handshake *)

(** Specification: the fixed header of a client hello *)
Definition HDR : bytes := [x48; x00; x00; x00; x00; x00].

(** [I] starts with a complete hello for [u], [p], followed by [unread]: the header, the two sizes as
    decimal numbers ended by LF (at least 4 bytes follow the header), the name and the password. *)
Definition hello_of (I u p unread : bytes) : Prop :=
  exists ds es,
    I = HDR ++ ds ++ LF :: es ++ LF :: u ++ p ++ unread /\
    all_digits ds /\ all_digits es /\ horner 0 ds = len u /\ horner 0 es = len p /\
    4 <= len (ds ++ LF :: es ++ LF :: u ++ p ++ unread).

(** the six header checks as a Boolean formula: the checks fail in a combination that makes the
    index computation overshoot *)
Definition crashing_header (b0 b1 b2 b3 b4 b5 : byte) : bool :=
  let f0 := negb (beq b0 x48) in
  let f1 := 0 <? b2n b1 in let f2 := 0 <? b2n b2 in let f3 := 0 <? b2n b3 in
  let f4 := 0 <? b2n b4 in let f5 := 0 <? b2n b5 in
  (f3 || f4 || f5) && (f1 || f2 || f5) && (f0 || f2 || f4).

(** a header the server understands *)
Definition good_header (b0 b1 b2 b3 b4 b5 : byte) : Prop := [b0; b1; b2; b3; b4; b5] = HDR.

Lemma b2n_pos b : (0 <? b2n b) = false -> b = x00.
Proof. intros H. apply N.ltb_ge in H. apply b2n_inj. change (b2n x00) with 0. lia. Qed.

(** what the initial block does *)
Lemma hs_initial_cases b0 b1 b2 b3 b4 b5 r :
  ([b0; b1; b2; b3; b4; b5] = HDR /\ hs_initial (b0 :: b1 :: b2 :: b3 :: b4 :: b5 :: r) = hs_meta1 r) \/
  ([b0; b1; b2; b3; b4; b5] <> HDR /\ crashing_header b0 b1 b2 b3 b4 b5 = true /\
     hs_initial (b0 :: b1 :: b2 :: b3 :: b4 :: b5 :: r) = (HPanic, r)) \/
  ([b0; b1; b2; b3; b4; b5] <> HDR /\ crashing_header b0 b1 b2 b3 b4 b5 = false /\
     exists e, forall r', hs_initial (b0 :: b1 :: b2 :: b3 :: b4 :: b5 :: r') = (HErr e, r')).
Proof.
  unfold hs_initial, crashing_header.
  destruct (beq b0 x48) eqn:E0; cbn [negb];
  destruct (0 <? b2n b1) eqn:E1; destruct (0 <? b2n b2) eqn:E2; destruct (0 <? b2n b3) eqn:E3;
  destruct (0 <? b2n b4) eqn:E4; destruct (0 <? b2n b5) eqn:E5; cbn [orb andb];
  (first [ left; apply beq_eq in E0; apply b2n_pos in E1, E2, E3, E4, E5; subst; split; reflexivity
         | right; left; split; [|split; reflexivity]; unfold HDR; intros X; inversion X; subst; discriminate
         | right; right; split; [|split; [reflexivity|eexists; intros r'; reflexivity]];
           unfold HDR; intros X; inversion X; subst; discriminate ]).
Qed.

Lemma hs_initial_hdr r : hs_initial (HDR ++ r) = hs_meta1 r.
Proof. reflexivity. Qed.

Lemma hs_initial_short I : len I < 6 -> hs_initial I = (HPanic, I).
Proof.
  intros H. do 6 (destruct I as [|? I]; [reflexivity|]).
  exfalso. rewrite !len_cons in H. lia.
Qed.

Lemma six I : 6 <= len I -> exists b0 b1 b2 b3 b4 b5 r, I = b0 :: b1 :: b2 :: b3 :: b4 :: b5 :: r.
Proof.
  intros H. do 6 (destruct I as [|? I]; [exfalso; rewrite ?len_cons, len_nil in H; lia|]).
  eauto 10.
Qed.

(** the expected total of each waiting state *)
Definition exp_of (st : hstate) : N :=
  match st with
  | HInitial => 6
  | HStatic => 4
  | HMeta u => wadd u 2
  | HVar u p => wadd u p
  end.

(** what is known about the buffer in each waiting state *)
Definition shape (st : hstate) (B rest : bytes) : Prop :=
  match st with
  | HInitial => B = rest
  | HStatic => B = HDR ++ rest
  | HMeta u => exists ds, B = HDR ++ ds ++ LF :: rest /\ all_digits ds /\ u = horner 0 ds /\ u < two64 /\
      4 <= len (ds ++ LF :: rest)
  | HVar u p => exists ds es, B = HDR ++ ds ++ LF :: es ++ LF :: rest /\ all_digits ds /\ all_digits es /\
      u = horner 0 ds /\ u < two64 /\ p = horner 0 es /\ p < two64 /\ 4 <= len (ds ++ LF :: es ++ LF :: rest)
  end.

Lemma shape_suffix st B rest : shape st B rest -> exists pre, B = pre ++ rest.
Proof.
  destruct st; cbn [shape].
  - intros ->. exists []. reflexivity.
  - intros ->. exists HDR. reflexivity.
  - intros (ds & -> & _). exists (HDR ++ ds ++ [LF]). rewrite <- !app_assoc. reflexivity.
  - intros (ds & es & -> & _). exists (HDR ++ ds ++ LF :: es ++ [LF]). rewrite <- !app_assoc. cbn.
    rewrite <- !app_assoc. reflexivity.
Qed.

Lemma hs_meta1_val ds r : all_digits ds -> horner 0 ds < two64 -> 4 <= len (ds ++ LF :: r) ->
  hs_meta1 (ds ++ LF :: r) = hs_meta2 (horner 0 ds) r.
Proof.
  intros D H L. unfold hs_meta1. destruct (N.ltb_spec (len (ds ++ LF :: r)) 4); [lia|].
  rewrite lf_u64_val by assumption. reflexivity.
Qed.

Lemma hs_meta2_val u es r : all_digits es -> horner 0 es < two64 ->
  hs_meta2 u (es ++ LF :: r) = hs_variable u (horner 0 es) r.
Proof. intros D H. unfold hs_meta2. rewrite lf_u64_val by assumption. reflexivity. Qed.

(** resuming after a wait is the same as parsing the whole buffer again *)
Lemma replay st B rest x : shape st B rest -> 6 <= len (B ++ x) ->
  hs_initial (B ++ x) = hs_resume st (rest ++ x).
Proof.
  intros S L. destruct st; cbn [shape] in S.
  - subst. reflexivity.
  - subst. rewrite <- app_assoc. apply hs_initial_hdr.
  - destruct S as (ds & -> & D & -> & U & L4). rewrite <- !app_assoc. cbn [app].
    rewrite hs_initial_hdr, hs_meta1_val; [reflexivity|assumption|assumption|].
    rewrite !len_app, ?len_cons, ?len_app in *. lia.
  - destruct S as (ds & es & -> & D & D' & -> & U & -> & P & L4).
    rewrite <- !app_assoc. cbn [app]. rewrite <- app_assoc. cbn [app].
    rewrite hs_initial_hdr, hs_meta1_val; [|assumption|assumption|].
    + rewrite hs_meta2_val by assumption. reflexivity.
    + rewrite !len_app, ?len_cons, ?len_app, ?len_cons, ?len_app in *. lia.
Qed.

Lemma hs_variable_more u p r st e r' : hs_variable u p r = (HMore st e, r') ->
  st = HVar u p /\ e = wadd u p /\ r' = r.
Proof.
  unfold hs_variable. destruct (wadd u p <=? len r).
  - destruct (takeN u r) as [[? ?]|]; [destruct (takeN p b0) as [[? ?]|]|]; discriminate.
  - intros E. injection E as <- <- <-. auto.
Qed.

Lemma more_shape I st e r : 6 <= len I -> hs_initial I = (HMore st e, r) ->
  shape st I r /\ e = exp_of st /\ st <> HInitial.
Proof.
  intros L H. destruct (six I L) as (b0 & b1 & b2 & b3 & b4 & b5 & q & ->).
  destruct (hs_initial_cases b0 b1 b2 b3 b4 b5 q) as [[X E]|[(_ & _ & E)|(_ & _ & er & E)]].
  2:{ rewrite E in H. discriminate. }
  2:{ rewrite E in H. discriminate. }
  rewrite E in H. clear E.
  assert (EQ : b0 :: b1 :: b2 :: b3 :: b4 :: b5 :: q = HDR ++ q) by (rewrite <- X; reflexivity).
  rewrite EQ in *. clear EQ X.
  unfold hs_meta1 in H. destruct (N.ltb_spec (len q) 4) as [L4|L4].
  { injection H as <- <- <-. cbn. split; [reflexivity|split; [reflexivity|discriminate]]. }
  destruct (lf_u64 q) as [u r1| |] eqn:E1.
  2:{ injection H as <- <- <-. cbn. split; [reflexivity|split; [reflexivity|discriminate]]. }
  2:{ discriminate. }
  apply lf_u64_val_inv in E1 as (ds & -> & D & -> & U).
  unfold hs_meta2 in H. destruct (lf_u64 r1) as [p r2| |] eqn:E2.
  2:{ injection H as <- <- <-. split; [|split; [reflexivity|discriminate]].
      exists ds. auto. }
  2:{ discriminate. }
  apply lf_u64_val_inv in E2 as (es & -> & D' & -> & P).
  apply hs_variable_more in H as (-> & -> & ->). split; [|split; [reflexivity|discriminate]].
  exists ds, es. auto 10.
Qed.

(** a decision does not change when more bytes follow *)
Definition decided (o : hout) : Prop := match o with HMore _ _ => False | _ => True end.

Lemma hs_variable_mono u p r x o r' : u < two64 -> p < two64 -> len (r ++ x) < two64 ->
  hs_variable u p r = (o, r') -> decided o -> exists r'', hs_variable u p (r ++ x) = (o, r'') /\
    (forall a b, o = HDone a b -> r'' = r' ++ x).
Proof.
  intros U P L H D. unfold hs_variable in *. rewrite len_app in *.
  destruct (N.leb_spec (wadd u p) (len r)) as [G|G].
  2:{ injection H as <- <-. destruct D. }
  destruct (N.leb_spec (wadd u p) (len r + len x)); [|lia].
  destruct (N.lt_ge_cases (u + p) two64) as [S|S].
  - assert (W : wadd u p = u + p) by (unfold wadd; apply N.mod_small; exact S). rewrite W in *.
    destruct (takeN u r) as [[a r1]|] eqn:E1.
    2:{ apply takeN_none in E1. lia. }
    pose proof (takeN_inv _ _ _ _ E1) as [-> La]. rewrite len_app in *.
    destruct (takeN p r1) as [[b r2]|] eqn:E2.
    2:{ apply takeN_none in E2. lia. }
    rewrite (takeN_app _ _ x _ _ E1), (takeN_app _ _ x _ _ E2).
    injection H as <- <-. eexists. split; [reflexivity|]. auto.
  - assert (X : forall z, len z < two64 -> (match takeN u z with
        | Some (uname, r1) => match takeN p r1 with Some (pwd, r2) => (HDone uname pwd, r2) | None => (HOob, z) end
        | None => (HOob, z) end) = (HOob, z)).
    { intros z Lz. destruct (takeN u z) as [[a r1]|] eqn:E1; [|reflexivity].
      apply takeN_inv in E1 as [-> La]. rewrite len_app in Lz.
      destruct (takeN p r1) as [[b r2]|] eqn:E2; [|reflexivity].
      apply takeN_inv in E2 as [-> Lb]. rewrite len_app in Lz. lia. }
    rewrite X in H by lia. rewrite X by (rewrite len_app; lia). injection H as <- <-.
    eexists. split; [reflexivity|]. discriminate.
Qed.

Lemma stop_at_lf_err rest : forall acc v r x, stop_at_lf rest acc = (false, v, r) ->
  exists v' r', stop_at_lf (rest ++ x) acc = (false, v', r').
Proof.
  induction rest as [|b rest IH]; intros acc v r x H; [discriminate|].
  cbn [stop_at_lf app] in *. destruct (beq b LF); [discriminate|].
  destruct (two64 <=? acc * 10); [eauto|]. destruct (two64 <=? acc * 10 + low4 b); [eauto|].
  destruct (is_digit b); [eapply IH; eassumption|eauto].
Qed.

Lemma lf_u64_err rest x : lf_u64 rest = SErr -> lf_u64 (rest ++ x) = SErr.
Proof.
  unfold lf_u64. destruct (stop_at_lf rest 0) as [[[|] v] r] eqn:E.
  - destruct r as [|b r]; [discriminate|]. destruct (beq b LF); discriminate.
  - intros _. apply (stop_at_lf_err _ _ _ _ x) in E as (v' & r' & ->). reflexivity.
Qed.

Lemma lf_u64_app rest v r x : lf_u64 rest = SVal v r -> lf_u64 (rest ++ x) = SVal v (r ++ x).
Proof.
  intros H. apply lf_u64_val_inv in H as (ds & -> & D & -> & U).
  rewrite <- app_assoc. cbn [app]. apply lf_u64_val; assumption.
Qed.

Lemma hs_initial_mono I x o r : 6 <= len I -> len (I ++ x) < two64 ->
  hs_initial I = (o, r) -> decided o ->
  exists r', hs_initial (I ++ x) = (o, r') /\ (forall a b, o = HDone a b -> r' = r ++ x).
Proof.
  intros L LT H D. destruct (six I L) as (b0 & b1 & b2 & b3 & b4 & b5 & q & ->). cbn [app].
  destruct (hs_initial_cases b0 b1 b2 b3 b4 b5 q) as [[X E]|[(X1 & X2 & E)|(X1 & X2 & er & E)]].
  2:{ destruct (hs_initial_cases b0 b1 b2 b3 b4 b5 (q ++ x)) as [[Y _]|[(_ & _ & E')|(_ & Y & _)]];
      [congruence| |congruence].
      rewrite E in H. injection H as <- <-. rewrite E'. eexists; split; [reflexivity|discriminate]. }
  2:{ rewrite E in H. injection H as <- <-. rewrite E. eexists; split; [reflexivity|discriminate]. }
  rewrite E in H. clear E L.
  assert (EQ : forall q, b0 :: b1 :: b2 :: b3 :: b4 :: b5 :: q = HDR ++ q) by (rewrite <- X; reflexivity).
  rewrite !EQ in *. rewrite hs_initial_hdr. clear EQ X.
  rewrite !len_app in LT. change (len HDR) with 6 in LT.
  unfold hs_meta1 in *. rewrite len_app. destruct (N.ltb_spec (len q) 4) as [L4|L4].
  { injection H as <- <-. destruct D. }
  destruct (N.ltb_spec (len q + len x) 4); [lia|].
  destruct (lf_u64 q) as [u r1| |] eqn:E1.
  2:{ injection H as <- <-. destruct D. }
  2:{ rewrite (lf_u64_err _ _ E1). injection H as <- <-. eexists; split; [reflexivity|discriminate]. }
  rewrite (lf_u64_app _ _ _ _ E1). apply lf_u64_val_inv in E1 as (ds & -> & Dd & -> & U).
  rewrite len_app, len_cons in LT.
  unfold hs_meta2 in *. destruct (lf_u64 r1) as [p r2| |] eqn:E2.
  2:{ injection H as <- <-. destruct D. }
  2:{ rewrite (lf_u64_err _ _ E2). injection H as <- <-. eexists; split; [reflexivity|discriminate]. }
  rewrite (lf_u64_app _ _ _ _ E2). apply lf_u64_val_inv in E2 as (es & -> & De & -> & P).
  rewrite len_app, len_cons in LT.
  apply hs_variable_mono; try assumption. rewrite len_app. lia.
Qed.

(** the whole-buffer parser accepts exactly the hellos *)
Lemma hs_initial_done I u p r : len I < two64 ->
  (hs_initial I = (HDone u p, r) <-> hello_of I u p r).
Proof.
  intros LT. split.
  - intros H. destruct (N.lt_ge_cases (len I) 6) as [L|L].
    { rewrite hs_initial_short in H by assumption. discriminate. }
    destruct (six I L) as (b0 & b1 & b2 & b3 & b4 & b5 & q & ->).
    destruct (hs_initial_cases b0 b1 b2 b3 b4 b5 q) as [[X E]|[(_ & _ & E)|(_ & _ & er & E)]].
    2:{ rewrite E in H. discriminate. }
    2:{ rewrite E in H. discriminate. }
    rewrite E in H. clear E.
    assert (EQ : b0 :: b1 :: b2 :: b3 :: b4 :: b5 :: q = HDR ++ q) by (rewrite <- X; reflexivity).
    rewrite EQ in *. clear EQ X L. rewrite len_app in LT.
    unfold hs_meta1 in H. destruct (N.ltb_spec (len q) 4) as [L4|L4]; [discriminate|].
    destruct (lf_u64 q) as [ul r1| |] eqn:E1; [|discriminate|discriminate].
    apply lf_u64_val_inv in E1 as (ds & -> & D & -> & U).
    unfold hs_meta2 in H. destruct (lf_u64 r1) as [pl r2| |] eqn:E2; [|discriminate|discriminate].
    apply lf_u64_val_inv in E2 as (es & -> & D' & -> & P).
    unfold hs_variable in H. destruct (wadd _ _ <=? _); [|discriminate].
    destruct (takeN _ r2) as [[a r3]|] eqn:E3; [|discriminate].
    destruct (takeN _ r3) as [[b r4]|] eqn:E4; [|discriminate].
    injection H as -> -> ->. apply takeN_inv in E3 as [-> La]. apply takeN_inv in E4 as [-> Lb].
    exists ds, es. auto 10.
  - intros (ds & es & -> & D & D' & U & P & L4).
    rewrite !len_app, !len_cons, !len_app, !len_cons, !len_app in *. change (len HDR) with 6 in LT.
    rewrite hs_initial_hdr, hs_meta1_val; [|assumption|lia|].
    2:{ rewrite !len_app, !len_cons, !len_app, !len_cons, !len_app. lia. }
    rewrite hs_meta2_val by (try assumption; lia). rewrite U, P. unfold hs_variable.
    assert (W : wadd (len u) (len p) = len u + len p) by (unfold wadd; apply N.mod_small; lia).
    rewrite W, !len_app. destruct (N.leb_spec (len u + len p) (len u + (len p + len r))); [|lia].
    rewrite takeN_exact, takeN_exact. reflexivity.
Qed.

(** the driver's invariant: [B] is everything received so far *)
Definition hinv (B : bytes) (c : hconn) : Prop :=
  hc_buf c = B /\ (hc_cur c <= List.length B)%nat /\ hc_exp c = exp_of (hc_st c) /\
  shape (hc_st c) B (skipn (hc_cur c) B) /\ (hc_st c = HInitial -> hc_cur c = O /\ len B < 6).

Lemma hinv_init : hinv [] hc_init.
Proof. unfold hinv; cbn; repeat split; auto. Qed.

(** verdict of the whole-buffer parser, as a driver result *)
Definition verdict (o : hout * bytes) : option hres :=
  match o with
  | (HDone u p, r) => Some (HFinal u p r)
  | (HMore _ _, _) => None
  | (HErr e, _) => Some (HReject e)
  | (HPanic, _) => Some HCrash
  | (HOob, _) => Some HUnsafe
  end.

Lemma hs_read_step B c ch : hinv B c -> ch <> [] ->
  (exists c', hs_read c ch = HWait c' /\ hinv (B ++ ch) c' /\
     (len (B ++ ch) < hc_exp c \/ exists st e r, 6 <= len (B ++ ch) /\ hs_initial (B ++ ch) = (HMore st e, r))) \/
  (6 <= len (B ++ ch) /\ verdict (hs_initial (B ++ ch)) = Some (hs_read c ch)).
Proof.
  intros (HB & HC & HE & HS & HI) Hch. unfold hs_read. destruct ch as [|h ch']; [congruence|].
  set (ch := h :: ch') in *. clear Hch. rewrite HB.
  assert (SK : skipn (hc_cur c) (B ++ ch) = skipn (hc_cur c) B ++ ch).
  { rewrite skipn_app. replace (hc_cur c - List.length B)%nat with 0%nat by lia. reflexivity. }
  destruct (N.ltb_spec (len (B ++ ch)) (hc_exp c)) as [G|G].
  - left. eexists. split; [reflexivity|]. split; [|left; assumption].
    unfold hinv. cbn [hc_buf hc_cur hc_exp hc_st].
    split; [reflexivity|]. split; [rewrite app_length; lia|]. split; [assumption|]. split.
    2:{ intros X. split; [apply HI; assumption|]. rewrite HE, X in G. exact G. }
    rewrite SK. destruct (hc_st c); cbn [shape] in *.
    + rewrite HS at 1. reflexivity.
    + rewrite HS at 1. rewrite <- app_assoc. reflexivity.
    + destruct HS as (ds & E & D & U & V & W). exists ds. split.
        { rewrite E at 1. rewrite <- !app_assoc. reflexivity. }
        repeat split; auto. rewrite ?len_app, ?len_cons, ?len_app in *. lia.
    + destruct HS as (ds & es & E & D & D' & U & V & W & X & Y). exists ds, es. split.
        { rewrite E at 1. rewrite <- !app_assoc. cbn. rewrite <- app_assoc. reflexivity. }
        repeat split; auto. rewrite ?len_app, ?len_cons, ?len_app, ?len_cons, ?len_app in *. lia.
  - assert (L6 : 6 <= len (B ++ ch)).
    { destruct (hc_st c) eqn:ES; rewrite HE in G.
      - exact G.
      - cbn [shape] in HS. rewrite HS, !len_app. change (len HDR) with 6. lia.
      - destruct HS as (ds & E & _). rewrite E, !len_app. change (len HDR) with 6. lia.
      - destruct HS as (ds & es & E & _). rewrite E, !len_app. change (len HDR) with 6. lia. }
    rewrite SK, <- (replay _ _ _ ch HS L6).
    destruct (hs_initial (B ++ ch)) as [o r] eqn:EI.
    destruct o as [u p|st e|e| |]; try (right; split; [assumption|reflexivity]).
    left. eexists. split; [reflexivity|].
    destruct (more_shape _ _ _ _ L6 EI) as (S' & -> & NI).
    split; [|right; eauto 10].
    destruct (shape_suffix _ _ _ S') as (pre & EP).
    unfold hinv. cbn [hc_buf hc_cur hc_exp hc_st].
    assert (EL : (List.length (B ++ ch) - List.length r = List.length pre)%nat).
    { rewrite EP, app_length. lia. }
    rewrite EL. split; [reflexivity|]. split; [rewrite EP, app_length; lia|]. split; [reflexivity|].
    split; [|intros X; congruence].
    rewrite EP at 2. rewrite skipn_app, skipn_all, Nat.sub_diag. cbn [skipn app]. assumption.
Qed.

(** when the whole buffer holds a complete hello, the gate is open *)
Lemma gate_open B c ch u p r : hinv B c -> len (B ++ ch) < two64 ->
  hello_of (B ++ ch) u p r -> ~ len (B ++ ch) < hc_exp c.
Proof.
  intros (HB & HC & HE & HS & HI) LT (ds & es & EI & D & D' & U & P & L4) G.
  rewrite HE in G. destruct (hc_st c) as [| |ul|ul pl]; cbn [exp_of shape] in *.
  - rewrite EI, !len_app in G. change (len HDR) with 6 in G. lia.
  - rewrite EI, !len_app in G. change (len HDR) with 6 in G. lia.
  - destruct HS as (ds' & E & Dd & -> & V & W). rewrite E in EI.
    rewrite <- !app_assoc in EI. apply app_inv_head in EI. cbn [app] in EI.
    apply digits_lf_inj in EI as [-> EI]; [|assumption|assumption].
    rewrite E in G. rewrite U in G. rewrite <- !app_assoc in G. cbn [app] in G. rewrite EI in G.
    rewrite !len_app, !len_cons, !len_app, !len_cons, !len_app in G.
    assert (wadd (len u) 2 <= len u + 2) by (unfold wadd; apply N.mod_le; unfold two64; lia).
    change (len HDR) with 6 in G. lia.
  - destruct HS as (ds' & es' & E & Dd & De & -> & V & -> & W & X). rewrite E in EI.
    rewrite <- !app_assoc in EI. apply app_inv_head in EI. cbn [app] in EI.
    apply digits_lf_inj in EI as [-> EI]; [|assumption|assumption].
    rewrite <- !app_assoc in EI. cbn [app] in EI.
    apply digits_lf_inj in EI as [-> EI]; [|assumption|assumption].
    rewrite E in G. rewrite U, P in G. rewrite <- !app_assoc in G. cbn [app] in G.
    rewrite <- !app_assoc in G. cbn [app] in G. rewrite EI in G.
    rewrite !len_app, !len_cons, !len_app, !len_cons, !len_app in G.
    assert (wadd (len u) (len p) <= len u + len p) by (unfold wadd; apply N.mod_le; unfold two64; lia).
    change (len HDR) with 6 in G. lia.
Qed.

Lemma hello_of_det I u p r u' p' r' : hello_of I u p r -> hello_of I u' p' r' -> u = u' /\ p = p' /\ r = r'.
Proof.
  intros (ds & es & -> & D & D' & U & P & _) (ds' & es' & E & Dd & De & U' & P' & _).
  apply app_inv_head in E.
  apply digits_lf_inj in E as [-> E]; [|assumption|assumption].
  apply digits_lf_inj in E as [-> E]; [|assumption|assumption].
  assert (L1 : len u = len u') by congruence. assert (L2 : len p = len p') by congruence.
  assert (T1 : takeN (len u) (u ++ p ++ r) = Some (u, p ++ r)) by apply takeN_exact.
  rewrite E, L1, takeN_exact in T1. injection T1 as -> E1.
  assert (T2 : takeN (len p) (p ++ r) = Some (p, r)) by apply takeN_exact.
  rewrite <- E1, L2, takeN_exact in T2. injection T2 as -> ->. auto.
Qed.

Lemma hello_of_app I u p r x : hello_of I u p r -> hello_of (I ++ x) u p (r ++ x).
Proof.
  intros (ds & es & -> & D & D' & U & P & L). exists ds, es. split.
  - rewrite <- !app_assoc. cbn [app]. rewrite <- !app_assoc. cbn [app]. rewrite <- !app_assoc. reflexivity.
  - repeat split; auto. rewrite !len_app, !len_cons, !len_app, !len_cons, !len_app in *. lia.
Qed.

(** same decision, the unread bytes possibly extended by [x] *)
Definition same_decision (x : bytes) (a b : hres) : Prop :=
  match a, b with
  | HFinal u p r, HFinal u' p' r' => u = u' /\ p = p' /\ r' = r ++ x
  | HReject e, HReject e' => e = e'
  | HCrash, HCrash => True
  | HUnsafe, HUnsafe => True
  | _, _ => False
  end.

Lemma verdict_mono I x v : 6 <= len I -> len (I ++ x) < two64 -> verdict (hs_initial I) = Some v ->
  exists v', verdict (hs_initial (I ++ x)) = Some v' /\ same_decision x v v'.
Proof.
  intros L LT H. destruct (hs_initial I) as [o r] eqn:E.
  destruct (hs_initial_mono I x o r L LT E) as (r' & E' & HR).
  { destruct o; cbn in *; congruence || exact Logic.I. }
  rewrite E'. destruct o; cbn in *; try discriminate H; injection H as <-; eexists; split; try reflexivity; cbn; auto.
  split; [reflexivity|]. split; [reflexivity|]. eapply HR; reflexivity.
Qed.

(** Every decision under fragmentation is the decision of the whole-buffer parser. *)
Lemma hs_run_sound chunks : forall B c, hinv B c -> Forall (fun ch => ch <> []) chunks ->
  len (B ++ concat chunks) < two64 ->
  (exists c', hs_run c chunks = HWait c' /\ hinv (B ++ concat chunks) c') \/
  (exists v x, verdict (hs_initial (B ++ concat chunks)) = Some v /\ same_decision x (hs_run c chunks) v /\
               6 <= len (B ++ concat chunks) /\ exists k, x = concat (skipn k chunks) /\ (0 < k)%nat).
Proof.
  induction chunks as [|ch chunks IH]; intros B c HI HN LT.
  - left. exists c. cbn. rewrite app_nil_r. auto.
  - inversion HN; subst. cbn [concat hs_run] in *.
    destruct (hs_read_step B c ch HI H1) as [(c' & E & HI' & _)|(L6 & V)].
    + rewrite E. destruct (IH (B ++ ch) c' HI' H2) as [X|(v & x & V & S & L & k & Ek & Hk)].
      * rewrite <- app_assoc. assumption.
      * rewrite <- app_assoc in X. left. exact X.
      * rewrite <- !app_assoc in *. right. exists v, x. repeat split; auto.
        exists (Datatypes.S k). split; [exact Ek|lia].
    + right. destruct (verdict_mono (B ++ ch) (concat chunks) _ L6 ltac:(rewrite <- app_assoc; exact LT) V) as (v' & V' & S).
      rewrite <- app_assoc in V'. exists v', (concat chunks). split; [exact V'|]. split.
      * destruct (hs_read c ch); exact S || destruct S.
      * split; [rewrite !len_app in *; lia|]. exists 1%nat. split; [reflexivity|lia].
Qed.

(** A complete hello is accepted under every fragmentation. *)
Lemma hs_run_complete chunks : forall B c u p r, hinv B c -> Forall (fun ch => ch <> []) chunks ->
  chunks <> [] -> len (B ++ concat chunks) < two64 -> hello_of (B ++ concat chunks) u p r ->
  exists rest k, hs_run c chunks = HFinal u p rest /\ r = rest ++ concat (skipn k chunks).
Proof.
  induction chunks as [|ch chunks IH]; intros B c u p r HI HN NE LT HH; [congruence|].
  inversion HN; subst. cbn [concat hs_run] in *. clear NE.
  destruct (hs_read_step B c ch HI H1) as [(c' & E & HI' & ALT)|(L6 & V)].
  - rewrite E. destruct chunks as [|ch2 chunks].
    + exfalso. cbn [concat] in *. rewrite app_nil_r in *.
      destruct ALT as [G|(st & e & q & L6 & EM)].
      * exact (gate_open B c ch u p r HI LT HH G).
      * apply hs_initial_done in HH; [|assumption]. congruence.
    + destruct (IH (B ++ ch) c' u p r HI' H2) as (rest & k & ER & EQ).
      * discriminate.
      * rewrite <- app_assoc. assumption.
      * rewrite <- app_assoc. assumption.
      * exists rest, (Datatypes.S k). split; [exact ER|exact EQ].
  - destruct (verdict_mono (B ++ ch) (concat chunks) _ L6 ltac:(rewrite <- app_assoc; exact LT) V) as (v' & V' & S).
    rewrite <- app_assoc in V'. apply hs_initial_done in HH; [|assumption]. rewrite HH in V'.
    cbn in V'. injection V' as <-.
    destruct (hs_read c ch) eqn:ER; cbn in S; try contradiction.
    destruct S as (-> & -> & ->). exists unread, 1%nat. split; reflexivity.
Qed.

Lemma hs_one_read I : I <> [] -> 6 <= len I -> verdict (hs_initial I) = None \/
  verdict (hs_initial I) = Some (hs_run hc_init [I]).
Proof.
  intros N L. cbn [hs_run]. unfold hs_read. destruct I as [|b I]; [congruence|]. set (J := b :: I) in *.
  cbn [hc_buf hc_init hc_exp hc_cur hc_st hs_resume app skipn].
  destruct (N.ltb_spec (len J) 6); [lia|].
  destruct (hs_initial J) as [[| | | |] r]; cbn; auto.
Qed.

(* ------------------------------------------------------------------ *)
(** * Query exchange *)

(** header and body of a packet: 'S', size digits, LF, window digits, LF, body *)
Record pkt := { p_ds : bytes; p_ws : bytes; p_body : bytes }.
Definition pkt_bytes (k : pkt) : bytes := x53 :: p_ds k ++ LF :: p_ws k ++ LF :: p_body k.
Definition pkt_ok (k : pkt) : Prop :=
  p_ds k <> [] /\ p_ws k <> [] /\
  all_digits (p_ds k) /\ all_digits (p_ws k) /\
  horner 0 (p_ds k) = len (p_ws k) + 1 + len (p_body k) /\
  horner 0 (p_ws k) < two64 /\ len (pkt_bytes k) < two64.

(** split of a prefix at the first terminator *)
Lemma prefix_cut ds T : forall rest ext, rest ++ ext = ds ++ LF :: T ->
  (exists d2, rest ++ d2 = ds /\ ext = d2 ++ LF :: T) \/
  (exists t1, rest = ds ++ LF :: t1 /\ T = t1 ++ ext).
Proof.
  induction ds as [|b ds IH]; intros [|c rest] ext H; cbn in H.
  - left. exists []. auto.
  - right. injection H as -> <-. exists rest. auto.
  - left. exists (b :: ds). auto.
  - injection H as -> H. apply IH in H as [(d2 & <- & ->)|(t1 & -> & ->)].
    + left. exists d2. auto.
    + right. exists t1. auto.
Qed.

Lemma all_digits_app a b : all_digits (a ++ b) <-> all_digits a /\ all_digits b.
Proof. apply Forall_app. Qed.

(** Waiting-state invariant relative to the packet being received; [B] is what arrived so far. *)
Definition qinv (k : pkt) (B : bytes) (c : qconn) : Prop :=
  qc_buf c = B /\ (qc_cur c <= List.length B)%nat /\
  (exists ext, ext <> [] /\ pkt_bytes k = B ++ ext) /\
  let rest := skipn (qc_cur c) B in
  match q_phase (qc_st c) with
  | QInitial => qc_cur c = O /\ qc_st c = q_new
  | QMeta1 => exists d1 d2, p_ds k = d1 ++ d2 /\ B = x53 :: d1 ++ rest /\ q_size (qc_st c) = horner 0 d1 /\
      q_window (qc_st c) = 0 /\ q_target (qc_st c) <= len B + 1
  | QMeta2 => exists w1 w2, p_ws k = w1 ++ w2 /\ B = x53 :: p_ds k ++ LF :: w1 ++ rest /\
      q_window (qc_st c) = horner 0 w1 /\ q_target (qc_st c) = len (pkt_bytes k)
  | QData => B = x53 :: p_ds k ++ LF :: p_ws k ++ LF :: rest /\ q_window (qc_st c) = horner 0 (p_ws k) /\
      q_target (qc_st c) = len (pkt_bytes k)
  end.

Lemma wsub_small a b : b <= a -> a < two64 -> wsub a b = a - b.
Proof.
  intros. unfold wsub. replace (a + two64 - b) with ((a - b) + 1 * two64) by lia.
  rewrite N.mod_add by discriminate. apply N.mod_small. lia.
Qed.

(** the possible outcomes of one resume: wait (nothing more arrived than a proper prefix) or done *)
Definition q_good (k : pkt) (BB : bytes) (o : qout * bytes) : Prop :=
  (exists st r pre, o = (QChange st, r) /\ BB = pre ++ r /\ BB <> pkt_bytes k /\
     (pre <> [] /\ match q_phase st with
      | QInitial => False
      | QMeta1 => exists d1 d2, p_ds k = d1 ++ d2 /\ BB = x53 :: d1 ++ r /\ q_size st = horner 0 d1 /\
          q_window st = 0 /\ q_target st <= len BB + 1
      | QMeta2 => exists w1 w2, p_ws k = w1 ++ w2 /\ BB = x53 :: p_ds k ++ LF :: w1 ++ r /\
          q_window st = horner 0 w1 /\ q_target st = len (pkt_bytes k)
      | QData => BB = x53 :: p_ds k ++ LF :: p_ws k ++ LF :: r /\ q_window st = horner 0 (p_ws k) /\
          q_target st = len (pkt_bytes k)
      end)) \/
  (BB = pkt_bytes k /\ o = (QCompleted (p_body k) (horner 0 (p_ws k)), [])).

Lemma pkt_len k : len (pkt_bytes k) = 3 + len (p_ds k) + len (p_ws k) + len (p_body k).
Proof. unfold pkt_bytes. rewrite len_cons, len_app, len_cons, len_app, len_cons. lia. Qed.

Lemma q_data_good k st rest ext :
  pkt_ok k -> rest ++ ext = p_body k -> q_target st = len (pkt_bytes k) -> q_window st = horner 0 (p_ws k) ->
  q_good k (x53 :: p_ds k ++ LF :: p_ws k ++ LF :: rest)
    (q_data st (len (x53 :: p_ds k ++ LF :: p_ws k ++ LF :: rest) - len rest) rest).
Proof.
  intros OK EB ET EW. destruct OK as (N1 & N2 & D1 & D2 & V1 & V2 & LT).
  pose proof (pkt_len k) as PL.
  unfold q_data. rewrite ET, EW.
  assert (LB : len (x53 :: p_ds k ++ LF :: p_ws k ++ LF :: rest) = 3 + len (p_ds k) + len (p_ws k) + len rest).
  { rewrite len_cons, len_app, len_cons, len_app, len_cons. lia. }
  assert (LE : len (p_body k) = len rest + len ext) by (rewrite <- EB, len_app; reflexivity).
  rewrite LB. rewrite wsub_small by lia.
  destruct (N.eqb_spec (len rest) (len (pkt_bytes k) - (3 + len (p_ds k) + len (p_ws k) + len rest - len rest))) as [E|E].
  - right. assert (len ext = 0) by lia. destruct ext; [|rewrite len_cons in *; lia].
    rewrite app_nil_r in EB. subst rest. split; reflexivity.
  - left. eexists _, rest, (x53 :: p_ds k ++ LF :: p_ws k ++ [LF]). split; [reflexivity|].
    split. { cbn [app]. rewrite <- app_assoc. cbn [app]. rewrite <- app_assoc. reflexivity. }
    split. { intros X. apply (f_equal len) in X. rewrite LB in X. lia. }
    split; [discriminate|]. cbn [q_phase q_window q_target]. auto.
Qed.

Lemma q_md2_good k st w1 rest ext :
  pkt_ok k -> w1 ++ rest ++ ext = p_ws k ++ LF :: p_body k -> (exists w2, w1 ++ w2 = p_ws k) ->
  q_target st = len (pkt_bytes k) -> q_window st = horner 0 w1 ->
  q_good k (x53 :: p_ds k ++ LF :: w1 ++ rest)
    (q_md2 st (len (x53 :: p_ds k ++ LF :: w1 ++ rest)) rest).
Proof.
  intros OK EB (w2 & EW2) ET EW. pose proof OK as OK'. destruct OK as (N1 & N2 & D1 & D2 & V1 & V2 & LT).
  pose proof (pkt_len k) as PL.
  rewrite <- EW2 in EB. rewrite <- app_assoc in EB. apply app_inv_head in EB.
  rewrite <- EW2 in D2. apply all_digits_app in D2 as [Dw1 Dw2].
  assert (HW : horner (horner 0 w1) w2 = horner 0 (p_ws k)) by (rewrite <- EW2, horner_app; reflexivity).
  unfold q_md2. rewrite EW.
  apply prefix_cut in EB as [(d2 & E1 & E2)|(t1 & E1 & E2)].
  - assert (Dr : all_digits rest) by (rewrite <- E1 in Dw2; apply all_digits_app in Dw2; tauto).
    rewrite scan_int_pend; [|assumption|].
    2:{ pose proof (horner_mono (horner (horner 0 w1) rest) d2). rewrite <- (horner_app (horner 0 w1) rest d2), E1, HW in H. lia. }
    left. eexists _, [], (x53 :: p_ds k ++ LF :: w1 ++ rest). split; [reflexivity|].
    split; [rewrite app_nil_r; reflexivity|]. split.
    { intros X. apply (f_equal len) in X. rewrite PL in X.
      rewrite len_cons, len_app, len_cons in X. rewrite <- EW2, <- E1 in X. rewrite !len_app in X. lia. }
    split; [discriminate|]. cbn [q_phase q_window q_target].
    exists (w1 ++ rest), d2. split; [rewrite <- app_assoc, E1; auto|].
    split; [rewrite app_nil_r; reflexivity|]. split; [rewrite horner_app; reflexivity|assumption].
  - rewrite E1, scan_int_done; [|assumption|lia]. rewrite HW.
    assert (EB : x53 :: p_ds k ++ LF :: w1 ++ w2 ++ LF :: t1 = x53 :: p_ds k ++ LF :: p_ws k ++ LF :: t1).
    { rewrite <- EW2. rewrite <- app_assoc. reflexivity. }
    rewrite EB. eapply q_data_good; eauto.
Qed.

Lemma q_md1_good k st d1 rest ext :
  pkt_ok k -> d1 ++ rest ++ ext = p_ds k ++ LF :: p_ws k ++ LF :: p_body k -> (exists d2, d1 ++ d2 = p_ds k) ->
  q_size st = horner 0 d1 -> q_window st = 0 -> q_target st <= len (x53 :: d1 ++ rest) ->
  q_good k (x53 :: d1 ++ rest) (q_md1 st (len (x53 :: d1 ++ rest)) rest).
Proof.
  intros OK EB (d2 & ED2) ES EW EG. pose proof OK as OK'. destruct OK as (N1 & N2 & D1 & D2 & V1 & V2 & LT).
  pose proof (pkt_len k) as PL.
  rewrite <- ED2 in EB. rewrite <- app_assoc in EB. apply app_inv_head in EB.
  rewrite <- ED2 in D1. apply all_digits_app in D1 as [Dd1 Dd2].
  assert (HD : horner (horner 0 d1) d2 = horner 0 (p_ds k)) by (rewrite <- ED2, horner_app; reflexivity).
  unfold q_md1. rewrite ES.
  apply prefix_cut in EB as [(e2 & E1 & E2)|(t1 & E1 & E2)].
  - assert (Dr : all_digits rest) by (rewrite <- E1 in Dd2; apply all_digits_app in Dd2; tauto).
    rewrite scan_int_pend; [|assumption|].
    2:{ pose proof (horner_mono (horner (horner 0 d1) rest) e2). rewrite <- (horner_app (horner 0 d1) rest e2), E1, HD in H. lia. }
    assert (LS : len (x53 :: d1 ++ rest) + 1 < two64).
    { assert (len (p_ds k) = len d1 + (len rest + len e2)) by (rewrite <- ED2, <- E1, !len_app; reflexivity).
      rewrite len_cons, len_app. lia. }
    left. eexists _, [], (x53 :: d1 ++ rest). split; [reflexivity|].
    split; [rewrite app_nil_r; reflexivity|]. split.
    { intros X. apply (f_equal len) in X. rewrite PL in X.
      rewrite <- ED2, <- E1 in X. rewrite len_cons, !len_app in X. lia. }
    split; [discriminate|]. cbn [q_phase q_window q_target q_size].
    exists (d1 ++ rest), e2. split; [rewrite <- app_assoc, E1; auto|].
    split; [rewrite app_nil_r; reflexivity|]. split; [rewrite horner_app; reflexivity|].
    split; [assumption|]. unfold wadd. rewrite N.mod_small by lia. lia.
  - rewrite E1, scan_int_done; [|assumption|lia]. rewrite HD.
    assert (EB : x53 :: d1 ++ d2 ++ LF :: t1 = x53 :: p_ds k ++ LF :: [] ++ t1).
    { rewrite <- ED2. rewrite <- app_assoc. reflexivity. }
    rewrite EB. apply (q_md2_good k _ [] t1 ext); auto.
    + exists (p_ws k). reflexivity.
    + cbn [q_target]. cbn [app].
      replace (len (x53 :: p_ds k ++ LF :: t1) - len t1) with (2 + len (p_ds k)).
      2:{ rewrite len_cons, len_app, len_cons. lia. }
      rewrite V1. unfold wadd. rewrite N.mod_small; lia.
Qed.

Lemma qinv_resume k B c ch ext :
  pkt_ok k -> qinv k B c -> pkt_bytes k = (B ++ ch) ++ ext -> q_target (qc_st c) <= len (B ++ ch) ->
  q_good k (B ++ ch) (q_resume (qc_st c) (len (B ++ ch)) (skipn (qc_cur c) (B ++ ch))).
Proof.
  intros OK (HB & HC & HX & HP) EX HT.
  assert (SK : skipn (qc_cur c) (B ++ ch) = skipn (qc_cur c) B ++ ch).
  { rewrite skipn_app. replace (qc_cur c - List.length B)%nat with 0%nat by lia. reflexivity. }
  rewrite SK. set (rest := skipn (qc_cur c) B) in *. unfold q_resume.
  destruct (q_phase (qc_st c)) eqn:EP; cbn zeta in HP.
  - destruct HP as [HC0 HS]. unfold q_initial. unfold rest. rewrite HC0. cbn [skipn].
    rewrite HS. unfold pkt_bytes in EX. destruct (B ++ ch) as [|b BB] eqn:EBB.
    { rewrite HS in HT. cbn in HT. lia. }
    cbn [app] in EX. injection EX as <- EX. rewrite beq_refl.
    rewrite HS in HT. cbn [q_new q_target] in HT.
    apply (q_md1_good k q_new [] BB ext); try reflexivity; auto.
    exists (p_ds k). reflexivity.
  - destruct HP as (d1 & d2 & ED & EB & ES & EW & ET).
    rewrite EB in EX |- *. cbn [app] in EX |- *. unfold pkt_bytes in EX. injection EX as EX.
    rewrite <- !app_assoc in *.
    apply (q_md1_good k (qc_st c) d1 (rest ++ ch) ext); auto.
    + rewrite <- app_assoc. auto.
    + eauto.
    + rewrite EB in HT. cbn [app] in HT. rewrite <- app_assoc in HT. exact HT.
  - destruct HP as (w1 & w2 & ED & EB & EW & ET).
    rewrite EB in EX |- *. cbn [app] in EX |- *. unfold pkt_bytes in EX. injection EX as EX.
    rewrite <- !app_assoc in *. apply app_inv_head in EX. cbn [app] in EX. injection EX as EX.
    cbn [app]. rewrite <- !app_assoc in *.
    apply (q_md2_good k (qc_st c) w1 (rest ++ ch) ext); auto.
    + rewrite <- app_assoc. auto.
    + eauto.
  - destruct HP as (EB & EW & ET).
    rewrite EB in EX |- *. cbn [app] in EX |- *. unfold pkt_bytes in EX. injection EX as EX.
    rewrite <- !app_assoc in *. apply app_inv_head in EX. cbn [app] in EX. injection EX as EX.
    rewrite <- !app_assoc in EX. apply app_inv_head in EX. cbn [app] in EX. injection EX as EX.
    cbn [app]. rewrite <- !app_assoc. cbn [app].
    apply (q_data_good k (qc_st c) (rest ++ ch) ext); auto. rewrite <- app_assoc. auto.
Qed.

(** one read inside a packet *)
Lemma q_read_step k B c ch ext : pkt_ok k -> qinv k B c -> ch <> [] -> pkt_bytes k = (B ++ ch) ++ ext ->
  (ext <> [] /\ exists c', q_read c ch = QWait c' /\ qinv k (B ++ ch) c') \/
  (ext = [] /\ q_read c ch = match takeN (horner 0 (p_ws k)) (p_body k) with
                            | Some (q, params) => QEmit (EvQuery q params) qc_reset
                            | None => QCrash
                            end).
Proof.
  intros OK HI HN EX. pose proof HI as HI'. destruct HI as (HB & HC & HX & HP).
  unfold q_read. destruct ch as [|h ch']; [congruence|]. set (ch := h :: ch') in *. rewrite HB.
  destruct (N.ltb_spec (len (B ++ ch)) (q_target (qc_st c))) as [G|G].
  - (* gate closed *)
    assert (NE : ext <> []).
    { intros ->. rewrite app_nil_r in EX. cbn zeta in HP.
      destruct (q_phase (qc_st c)).
      - destruct HP as [_ HS]. rewrite HS in G. cbn in G. rewrite <- EX, pkt_len in G.
        destruct OK as (N1 & N2 & _). destruct (p_ds k); [congruence|]. destruct (p_ws k); [congruence|].
        rewrite !len_cons in G. lia.
      - destruct HP as (? & ? & _ & _ & _ & _ & T). rewrite len_app in G.
        unfold ch in G. rewrite len_cons in G. lia.
      - destruct HP as (? & ? & _ & _ & _ & T). rewrite T, EX in G. lia.
      - destruct HP as (_ & _ & T). rewrite T, EX in G. lia. }
    left. split; [assumption|]. eexists. split; [reflexivity|].
    split; [reflexivity|]. cbn [qc_cur qc_st].
    split; [rewrite app_length; lia|]. split; [eauto|].
    assert (SK : skipn (qc_cur c) (B ++ ch) = skipn (qc_cur c) B ++ ch).
    { rewrite skipn_app. replace (qc_cur c - List.length B)%nat with 0%nat by lia. reflexivity. }
    cbn zeta in *. rewrite SK. destruct (q_phase (qc_st c)).
    + assumption.
    + destruct HP as (d1 & d2 & P1 & P2 & P3 & P4 & P5). exists d1, d2.
      split; [assumption|]. split; [rewrite P2 at 1; cbn; rewrite <- app_assoc; reflexivity|].
      split; [assumption|]. split; [assumption|]. rewrite len_app. lia.
    + destruct HP as (w1 & w2 & P1 & P2 & P3 & P4). exists w1, w2.
      split; [assumption|]. split; [rewrite P2 at 1; cbn; rewrite <- app_assoc; cbn; rewrite <- app_assoc; reflexivity|].
      auto.
    + destruct HP as (P1 & P2 & P3).
      split; [rewrite P1 at 1; cbn; rewrite <- app_assoc; cbn; rewrite <- app_assoc; reflexivity|]. auto.
  - destruct (qinv_resume k B c ch ext OK HI' EX G) as [(st & r & pre & EO & EP & NP & NPre & HS)|(EQ & EO)].
    + rewrite EO. left. split.
      { intros ->. rewrite app_nil_r in EX. congruence. }
      eexists. split; [reflexivity|].
      assert (NE : ext <> []) by (intros ->; rewrite app_nil_r in EX; congruence).
      assert (EL : (List.length (B ++ ch) - List.length r = List.length pre)%nat).
      { rewrite EP, app_length. lia. }
      rewrite EL. split; [reflexivity|]. cbn [qc_cur qc_st].
      split; [rewrite EP, app_length; lia|]. split; [eauto|].
      assert (SR : skipn (List.length pre) (B ++ ch) = r).
      { rewrite EP, skipn_app, skipn_all, Nat.sub_diag. reflexivity. }
      cbn zeta. rewrite SR. destruct (q_phase st); [contradiction|auto|auto|auto].
    + rewrite EO. right. assert (ext = []).
      { rewrite EQ in EX. rewrite <- (app_nil_r (pkt_bytes k)) in EX at 1. apply app_inv_head in EX. auto. }
      split; [assumption|]. reflexivity.
Qed.

Lemma qinv_reset k : qinv k [] qc_reset.
Proof.
  split; [reflexivity|]. split; [cbn; lia|]. split; [exists (pkt_bytes k); split; [discriminate|reflexivity]|].
  cbn. auto.
Qed.

Lemma q_run_packet k chunks : pkt_ok k -> Forall (fun ch => ch <> []) chunks ->
  forall B c ext, qinv k B c -> chunks <> [] -> pkt_bytes k = (B ++ concat chunks) ++ ext ->
  (ext <> [] /\ exists c', q_run c chunks = ([], QRunning c') /\ qinv k (B ++ concat chunks) c') \/
  (ext = [] /\ q_run c chunks = match takeN (horner 0 (p_ws k)) (p_body k) with
                               | Some (q, params) => ([EvQuery q params], QRunning qc_reset)
                               | None => ([], QStopCrash)
                               end).
Proof.
  intros OK HN. induction HN as [|ch chunks Hch HN IH]; intros B c ext HI NE EX; [congruence|].
  cbn [concat q_run] in *.
  destruct (q_read_step k B c ch (concat chunks ++ ext) OK HI Hch) as [(NX & c' & E & HI')|(EX0 & E3)].
  { rewrite EX, <- !app_assoc. reflexivity. }
  - rewrite E. destruct chunks as [|ch2 chunks].
    + left. cbn in *. rewrite app_nil_r in *. split; [assumption|]. eauto.
    + destruct (IH (B ++ ch) c' ext HI') as [X|X].
      * discriminate.
      * rewrite EX, <- !app_assoc. reflexivity.
      * left. rewrite <- app_assoc in X. exact X.
      * right. exact X.
  - destruct chunks as [|ch2 chunks].
    + cbn in EX0. subst ext. right. split; [reflexivity|]. rewrite E3.
      destruct (takeN _ _) as [[q ps]|]; reflexivity.
    + exfalso. inversion HN; subst. destruct ch2; [congruence|discriminate].
Qed.

(** ** Bytes beyond the packet *)

(** a resume on a buffer holding the whole packet and more *)
Lemma over_data k st extra : pkt_ok k -> extra <> [] -> len (pkt_bytes k ++ extra) < two64 ->
  q_target st = len (pkt_bytes k) -> q_window st = horner 0 (p_ws k) ->
  exists st', q_data st (len (pkt_bytes k ++ extra) - len (p_body k ++ extra)) (p_body k ++ extra)
                = (QChange st', p_body k ++ extra) /\
    q_phase st' = QData /\ q_target st' = len (pkt_bytes k).
Proof.
  intros OK NE LT ET EW. unfold q_data. rewrite ET. rewrite len_app in LT.
  destruct extra as [|x extra]; [congruence|]. rewrite !len_app, len_cons in *.
  pose proof (pkt_len k). rewrite wsub_small by lia.
  destruct (N.eqb_spec (len (p_body k) + (1 + len extra))
    (len (pkt_bytes k) - (len (pkt_bytes k) + (1 + len extra) - (len (p_body k) + (1 + len extra))))); [lia|].
  eexists. split; [reflexivity|]. cbn. auto.
Qed.

Lemma over_md2 k st w1 w2 extra : pkt_ok k -> extra <> [] -> len (pkt_bytes k ++ extra) < two64 ->
  p_ws k = w1 ++ w2 -> q_target st = len (pkt_bytes k) -> q_window st = horner 0 w1 ->
  exists st', q_md2 st (len (pkt_bytes k ++ extra)) (w2 ++ LF :: p_body k ++ extra) = (QChange st', p_body k ++ extra) /\
    q_phase st' = QData /\ q_target st' = len (pkt_bytes k).
Proof.
  intros OK NE LT EW ET EQ. pose proof OK as (N1 & N2 & D1 & D2 & V1 & V2 & LP).
  rewrite EW in D2. apply all_digits_app in D2 as [D21 D22].
  assert (HW : horner (horner 0 w1) w2 = horner 0 (p_ws k)) by (rewrite EW, horner_app; reflexivity).
  unfold q_md2. rewrite EQ, scan_int_done by (try assumption; lia). rewrite HW.
  apply over_data; auto.
Qed.

Lemma over_md1 k st d1 d2 extra : pkt_ok k -> extra <> [] -> len (pkt_bytes k ++ extra) < two64 ->
  p_ds k = d1 ++ d2 -> q_size st = horner 0 d1 -> q_window st = 0 ->
  exists st', q_md1 st (len (pkt_bytes k ++ extra)) (d2 ++ LF :: p_ws k ++ LF :: p_body k ++ extra)
     = (QChange st', p_body k ++ extra) /\
    q_phase st' = QData /\ q_target st' = len (pkt_bytes k).
Proof.
  intros OK NE LT ED ES EQ. pose proof OK as (N1 & N2 & D1 & D2 & V1 & V2 & LP).
  rewrite ED in D1. apply all_digits_app in D1 as [D11 D12].
  assert (HW : horner (horner 0 d1) d2 = horner 0 (p_ds k)) by (rewrite ED, horner_app; reflexivity).
  pose proof (pkt_len k).
  unfold q_md1. rewrite ES, scan_int_done by (try assumption; lia). rewrite HW.
  apply (over_md2 k _ [] (p_ws k)); auto.
  cbn [q_target]. rewrite V1.
  replace (len (pkt_bytes k ++ extra) - len (p_ws k ++ LF :: p_body k ++ extra)) with (2 + len (p_ds k)).
  2:{ rewrite !len_app, len_cons, len_app, H. lia. }
  unfold wadd. rewrite N.mod_small; lia.
Qed.

Lemma over_resume k B c ch extra : pkt_ok k -> extra <> [] -> len (pkt_bytes k ++ extra) < two64 ->
  qinv k B c -> B ++ ch = pkt_bytes k ++ extra ->
  q_target (qc_st c) <= len (B ++ ch) /\
  exists st', q_resume (qc_st c) (len (B ++ ch)) (skipn (qc_cur c) (B ++ ch)) = (QChange st', p_body k ++ extra) /\
    q_phase st' = QData /\ q_target st' = len (pkt_bytes k).
Proof.
  intros OK NE LT (HB & HC & (ext & NX & HX) & HP) EQ.
  assert (SK : skipn (qc_cur c) (B ++ ch) = skipn (qc_cur c) B ++ ch).
  { rewrite skipn_app. replace (qc_cur c - List.length B)%nat with 0%nat by lia. reflexivity. }
  assert (ECH : ch = ext ++ extra).
  { rewrite HX in EQ. rewrite <- app_assoc in EQ. apply app_inv_head in EQ. exact EQ. }
  rewrite SK, EQ. set (rest := skipn (qc_cur c) B) in *. unfold q_resume. cbn zeta in HP.
  pose proof (pkt_len k) as PL. pose proof OK as (N1 & N2 & _).
  destruct (q_phase (qc_st c)).
  - destruct HP as [HC0 HS]. split.
    { rewrite HS. cbn [q_new q_target]. rewrite len_app, PL.
      destruct (p_ds k); [congruence|]. destruct (p_ws k); [congruence|]. rewrite !len_cons. lia. }
    unfold rest. rewrite HC0. cbn [skipn]. rewrite EQ, HS.
    assert (EPK : pkt_bytes k ++ extra = x53 :: p_ds k ++ LF :: p_ws k ++ LF :: p_body k ++ extra).
    { unfold pkt_bytes. cbn [app]. rewrite <- !app_assoc. cbn [app]. rewrite <- !app_assoc. reflexivity. }
    set (L := len (pkt_bytes k ++ extra)). rewrite EPK. unfold L. cbn [q_initial].
    change (beq x53 x53) with true. cbn iota.
    apply (over_md1 k q_new [] (p_ds k)); auto.
  - destruct HP as (d1 & d2 & ED & EB & ES & EW & ET). split.
    { rewrite HX, <- app_assoc. rewrite len_app. destruct ext; [congruence|]. cbn [app]. rewrite len_cons. lia. }
    assert (ER : rest ++ ch = d2 ++ LF :: p_ws k ++ LF :: p_body k ++ extra).
    { unfold pkt_bytes in EQ. rewrite EB, ED in EQ. cbn [app] in EQ. injection EQ as EQ.
      rewrite <- !app_assoc in EQ. apply app_inv_head in EQ. cbn [app] in EQ. rewrite <- !app_assoc in EQ. exact EQ. }
    rewrite ER. apply (over_md1 k _ d1 d2); auto.
  - destruct HP as (w1 & w2 & EW & EB & EWv & ET). split.
    { rewrite ET, len_app. lia. }
    assert (ER : rest ++ ch = w2 ++ LF :: p_body k ++ extra).
    { unfold pkt_bytes in EQ. rewrite EB, EW in EQ. cbn [app] in EQ. injection EQ as EQ.
      rewrite <- !app_assoc in EQ. apply app_inv_head in EQ. cbn [app] in EQ. injection EQ as EQ.
      rewrite <- !app_assoc in EQ. apply app_inv_head in EQ. exact EQ. }
    rewrite ER. apply (over_md2 k _ w1 w2); auto.
  - destruct HP as (EB & EW & ET). split.
    { rewrite ET, len_app. lia. }
    assert (ER : rest ++ ch = p_body k ++ extra).
    { unfold pkt_bytes in EQ. rewrite EB in EQ. cbn [app] in EQ. injection EQ as EQ.
      rewrite <- !app_assoc in EQ. apply app_inv_head in EQ. cbn [app] in EQ. injection EQ as EQ.
      rewrite <- !app_assoc in EQ. apply app_inv_head in EQ. cbn [app] in EQ. injection EQ as EQ. exact EQ. }
    rewrite ER. apply over_data; auto.
Qed.

(** a connection that holds more bytes than the announced packet *)
Definition overfull (c : qconn) : Prop :=
  q_phase (qc_st c) = QData /\ (qc_cur c <= List.length (qc_buf c))%nat /\
  N.of_nat (qc_cur c) <= q_target (qc_st c) < len (qc_buf c).

Lemma overfull_stuck chunks : Forall (fun ch => ch <> []) chunks -> forall c, overfull c ->
  len (qc_buf c ++ concat chunks) < two64 ->
  exists c', q_run c chunks = ([], QRunning c') /\ overfull c'.
Proof.
  induction 1 as [|ch chunks Hch HN IH]; intros c (HP & HC & HT) LT.
  - exists c. unfold overfull. auto.
  - cbn [concat q_run] in *. unfold q_read. destruct ch as [|h ch']; [congruence|]. set (ch := h :: ch') in *.
    rewrite app_assoc in LT. rewrite len_app in LT.
    assert (LL : len (qc_buf c ++ ch) = len (qc_buf c) + 1 + len ch').
    { rewrite len_app. unfold ch. rewrite len_cons. lia. }
    destruct (N.ltb_spec (len (qc_buf c ++ ch)) (q_target (qc_st c))); [lia|].
    unfold q_resume. rewrite HP. unfold q_data.
    assert (SL : len (skipn (qc_cur c) (qc_buf c ++ ch)) = len (qc_buf c ++ ch) - N.of_nat (qc_cur c)).
    { unfold len. rewrite skipn_length. lia. }
    rewrite SL.
    replace (len (qc_buf c ++ ch) - (len (qc_buf c ++ ch) - N.of_nat (qc_cur c))) with (N.of_nat (qc_cur c)) by lia.
    rewrite wsub_small by lia.
    destruct (N.eqb_spec (len (qc_buf c ++ ch) - N.of_nat (qc_cur c)) (q_target (qc_st c) - N.of_nat (qc_cur c))); [lia|].
    apply IH.
    + split; [reflexivity|]. cbn [qc_st qc_cur qc_buf q_target].
      assert (EL : (List.length (qc_buf c ++ ch) - List.length (skipn (qc_cur c) (qc_buf c ++ ch)) = qc_cur c)%nat).
      { rewrite skipn_length, app_length. lia. }
      rewrite EL. split; [rewrite app_length; lia|]. lia.
    + cbn [qc_buf]. rewrite len_app. exact LT.
Qed.

(** ** What a completed packet looks like, for arbitrary input *)

Definition qshape (B : bytes) (c : qconn) : Prop :=
  qc_buf c = B /\ (qc_cur c <= List.length B)%nat /\
  let rest := skipn (qc_cur c) B in
  match q_phase (qc_st c) with
  | QInitial => qc_cur c = O /\ qc_st c = q_new
  | QMeta1 => exists d1, all_digits d1 /\ B = x53 :: d1 ++ rest /\ q_size (qc_st c) = horner 0 d1 /\
      horner 0 d1 < two64 /\ q_window (qc_st c) = 0
  | QMeta2 => exists ds w1, all_digits ds /\ all_digits w1 /\ B = x53 :: ds ++ LF :: w1 ++ rest /\
      horner 0 ds < two64 /\ q_window (qc_st c) = horner 0 w1 /\ horner 0 w1 < two64 /\
      q_target (qc_st c) = wadd (2 + len ds) (horner 0 ds)
  | QData => exists ds ws, all_digits ds /\ all_digits ws /\ B = x53 :: ds ++ LF :: ws ++ LF :: rest /\
      horner 0 ds < two64 /\ q_window (qc_st c) = horner 0 ws /\ horner 0 ws < two64 /\
      q_target (qc_st c) = wadd (2 + len ds) (horner 0 ds)
  end.

(** the packets the parser completes *)
Definition complete_packet (B : bytes) (body : bytes) (w : N) : Prop :=
  exists ds ws, B = x53 :: ds ++ LF :: ws ++ LF :: body /\ all_digits ds /\ all_digits ws /\
    horner 0 ds = len ws + 1 + len body /\ horner 0 ws = w.

Definition q_out_ok (BB : bytes) (o : qout * bytes) : Prop :=
  match o with
  | (QCompleted body w, _) => complete_packet BB body w
  | (QChange st, r) => exists pre, BB = pre ++ r /\
      qshape BB {| qc_buf := BB; qc_cur := List.length pre; qc_st := st |}
  | (QError, _) => True
  end.

Lemma skipn_pre (pre r : bytes) : skipn (List.length pre) (pre ++ r) = r.
Proof. rewrite skipn_app, skipn_all, Nat.sub_diag. reflexivity. Qed.

Lemma scan_int_pend_inv rest : forall acc v, acc < two64 -> scan_int rest acc = AccPend v ->
  all_digits rest /\ v = horner acc rest /\ v < two64.
Proof.
  induction rest as [|b rest IH]; intros acc v HA H.
  - cbn in H. injection H as <-. repeat split; [constructor|assumption].
  - cbn [scan_int] in H. destruct (beq b LF); [discriminate|].
    destruct (is_digit b) eqn:D; [|discriminate]. cbn [negb] in H.
    destruct (N.leb_spec two64 (acc * 10)); [discriminate|].
    destruct (N.leb_spec two64 (acc * 10 + low4 b)); [discriminate|].
    apply is_digit_iff in D. destruct (digit_low4 _ D) as (_ & E & _).
    apply IH in H as (X & -> & Y); [|assumption]. split; [constructor; assumption|].
    rewrite horner_cons, <- E. auto.
Qed.

Lemma q_data_ok ds ws rest st : all_digits ds -> all_digits ws -> horner 0 ds < two64 -> horner 0 ws < two64 ->
  q_window st = horner 0 ws -> q_target st = wadd (2 + len ds) (horner 0 ds) ->
  let BB := x53 :: ds ++ LF :: ws ++ LF :: rest in len BB < two64 ->
  q_out_ok BB (q_data st (len BB - len rest) rest).
Proof.
  intros D1 D2 V1 V2 EW ET BB LT. unfold q_data.
  assert (LB : len BB = 3 + len ds + len ws + len rest).
  { unfold BB. rewrite len_cons, len_app, len_cons, len_app, len_cons. lia. }
  replace (len BB - len rest) with (3 + len ds + len ws) by lia.
  destruct (N.eqb_spec (len rest) (wsub (q_target st) (3 + len ds + len ws))) as [E|E].
  - cbn. exists ds, ws. split; [reflexivity|]. split; [assumption|]. split; [assumption|]. split; [|auto].
    rewrite ET in E. unfold wsub, wadd in E.
    assert (M : (len rest + (3 + len ds + len ws)) mod two64 = (2 + len ds + horner 0 ds) mod two64).
    { rewrite E.
      assert (T0 : two64 <> 0) by discriminate.
      set (a := (2 + len ds + horner 0 ds) mod two64) in *. set (b := 3 + len ds + len ws) in *.
      assert (a < two64) by (apply N.mod_lt; assumption).
      rewrite N.add_mod_idemp_l by assumption.
      replace (a + two64 - b + b) with (a + 1 * two64) by lia.
      rewrite N.mod_add by assumption. apply N.mod_small. assumption. }
    rewrite N.mod_small in M by lia.
    destruct (N.lt_ge_cases (2 + len ds + horner 0 ds) two64) as [S|S].
    + rewrite N.mod_small in M by assumption. lia.
    + assert ((2 + len ds + horner 0 ds) mod two64 = 2 + len ds + horner 0 ds - two64).
      { symmetry. apply (N.mod_unique _ _ 1); lia. }
      lia.
  - cbn. exists (x53 :: ds ++ LF :: ws ++ [LF]). split.
    { unfold BB. cbn. rewrite <- app_assoc. cbn. rewrite <- app_assoc. reflexivity. }
    assert (EB : BB = (x53 :: ds ++ LF :: ws ++ [LF]) ++ rest).
    { unfold BB. cbn. rewrite <- app_assoc. cbn. rewrite <- app_assoc. reflexivity. }
    split; [reflexivity|]. cbn [qc_cur qc_st q_phase q_window q_target]. split.
    { rewrite EB, app_length. lia. }
    cbn zeta. exists ds, ws.
    change (S (List.length (ds ++ LF :: ws ++ [LF]))) with (List.length (x53 :: ds ++ LF :: ws ++ [LF])).
    replace (skipn (List.length (x53 :: ds ++ LF :: ws ++ [LF])) BB) with rest.
    2:{ rewrite EB, skipn_pre. reflexivity. }
    unfold BB. auto 10.
Qed.

Lemma q_md2_ok ds w1 rest st : all_digits ds -> all_digits w1 -> horner 0 ds < two64 -> horner 0 w1 < two64 ->
  q_window st = horner 0 w1 -> q_target st = wadd (2 + len ds) (horner 0 ds) ->
  let BB := x53 :: ds ++ LF :: w1 ++ rest in len BB < two64 ->
  q_out_ok BB (q_md2 st (len BB) rest).
Proof.
  intros D1 D2 V1 V2 EW ET BB LT. unfold q_md2. rewrite EW.
  destruct (scan_int rest (horner 0 w1)) as [v r|v|] eqn:ES; [| |exact I].
  - apply scan_int_done_inv in ES as (w2 & -> & Dw & -> & Hv); [|assumption].
    assert (EB : BB = x53 :: ds ++ LF :: (w1 ++ w2) ++ LF :: r) by (unfold BB; rewrite <- !app_assoc; reflexivity).
    rewrite EB in *. rewrite <- horner_app in *. apply q_data_ok; auto. apply all_digits_app; auto.
  - apply scan_int_pend_inv in ES as (Dr & -> & Hv); [|assumption].
    cbn. exists BB. split; [rewrite app_nil_r; reflexivity|]. split; [reflexivity|].
    cbn [qc_cur qc_st q_phase q_window q_target]. split; [lia|]. cbn zeta.
    rewrite skipn_all. exists ds, (w1 ++ rest). rewrite <- horner_app in *.
    split; [assumption|]. split; [apply all_digits_app; auto|]. split; [rewrite app_nil_r; reflexivity|]. auto.
Qed.

Lemma q_md1_ok d1 rest st : all_digits d1 -> horner 0 d1 < two64 -> q_size st = horner 0 d1 -> q_window st = 0 ->
  let BB := x53 :: d1 ++ rest in len BB < two64 -> q_out_ok BB (q_md1 st (len BB) rest).
Proof.
  intros D1 V1 ES EW BB LT. unfold q_md1. rewrite ES.
  destruct (scan_int rest (horner 0 d1)) as [v r|v|] eqn:ER; [| |exact I].
  - apply scan_int_done_inv in ER as (d2 & -> & Dd & -> & Hv); [|assumption].
    assert (EB : BB = x53 :: (d1 ++ d2) ++ LF :: [] ++ r) by (unfold BB; rewrite <- !app_assoc; reflexivity).
    rewrite EB in *. rewrite <- horner_app in *. apply q_md2_ok; auto.
    + apply all_digits_app; auto.
    + constructor.
    + reflexivity.
    + cbn [q_target]. f_equal. cbn [app]. rewrite len_cons, len_app, len_cons. lia.
  - apply scan_int_pend_inv in ER as (Dr & -> & Hv); [|assumption].
    cbn. exists BB. split; [rewrite app_nil_r; reflexivity|]. split; [reflexivity|].
    cbn [qc_cur qc_st q_phase q_window q_target]. split; [lia|]. cbn zeta.
    rewrite skipn_all. exists (d1 ++ rest). rewrite <- horner_app in *.
    split; [apply all_digits_app; auto|]. split; [rewrite app_nil_r; reflexivity|]. auto.
Qed.

Lemma qshape_resume B c ch : qshape B c -> ch <> [] -> len (B ++ ch) < two64 -> q_target (qc_st c) <= len (B ++ ch) ->
  q_out_ok (B ++ ch) (q_resume (qc_st c) (len (B ++ ch)) (skipn (qc_cur c) (B ++ ch))).
Proof.
  intros (HB & HC & HP) Hch LT GT.
  assert (SK : skipn (qc_cur c) (B ++ ch) = skipn (qc_cur c) B ++ ch).
  { rewrite skipn_app. replace (qc_cur c - List.length B)%nat with 0%nat by lia. reflexivity. }
  rewrite SK. set (rest := skipn (qc_cur c) B) in *. cbn zeta in HP. unfold q_resume.
  destruct (q_phase (qc_st c)).
  - destruct HP as [HC0 HS]. unfold rest. rewrite HC0. cbn [skipn]. rewrite HS. unfold q_initial.
    destruct (B ++ ch) as [|b BB] eqn:EB; [exact I|].
    destruct (beq b x53) eqn:E; [|exact I]. apply beq_eq in E. subst b.
    apply (q_md1_ok [] BB q_new); auto; try constructor. 
  - destruct HP as (d1 & D1 & EB & ES & V & EW). rewrite EB in *. cbn [app] in *. rewrite <- app_assoc in *.
    apply q_md1_ok; auto.
  - destruct HP as (ds & w1 & D1 & D2 & EB & V1 & EW & V2 & ET). rewrite EB in *. cbn [app] in *.
    rewrite <- app_assoc in *. cbn [app] in *. rewrite <- app_assoc in *. apply q_md2_ok; auto.
  - destruct HP as (ds & ws & D1 & D2 & EB & V1 & EW & V2 & ET). rewrite EB in *. cbn [app] in *.
    rewrite <- app_assoc in *. cbn [app] in *. rewrite <- app_assoc in *. cbn [app] in *. apply q_data_ok; auto.
Qed.

Lemma q_read_shape B c ch : qshape B c -> ch <> [] -> len (B ++ ch) < two64 ->
  match q_read c ch with
  | QWait c' => qshape (B ++ ch) c'
  | QEmit (EvQuery q params) c' => complete_packet (B ++ ch) (q ++ params) (len q) /\ c' = qc_reset
  | QEmit EvIllegal c' => c' = qc_reset
  | QClosed => False
  | QCrash => exists body w, complete_packet (B ++ ch) body w /\ len body < w
  end.
Proof.
  intros HS Hch LT. pose proof HS as (HB & HC & HP). unfold q_read.
  destruct ch as [|h ch']; [congruence|]. set (ch := h :: ch') in *. rewrite HB.
  destruct (N.ltb_spec (len (B ++ ch)) (q_target (qc_st c))) as [G|G].
  - split; [reflexivity|]. cbn [qc_cur qc_st]. split; [rewrite app_length; lia|].
    assert (SK : skipn (qc_cur c) (B ++ ch) = skipn (qc_cur c) B ++ ch).
    { rewrite skipn_app. replace (qc_cur c - List.length B)%nat with 0%nat by lia. reflexivity. }
    rewrite SK. cbn zeta in *. destruct (q_phase (qc_st c)).
    + assumption.
    + destruct HP as (d1 & D1 & EB & X). exists d1. split; [assumption|].
      split; [rewrite EB at 1; cbn; rewrite <- app_assoc; reflexivity|assumption].
    + destruct HP as (ds & w1 & D1 & D2 & EB & X). exists ds, w1. split; [assumption|]. split; [assumption|].
      split; [rewrite EB at 1; cbn; rewrite <- app_assoc; cbn; rewrite <- app_assoc; reflexivity|assumption].
    + destruct HP as (ds & w1 & D1 & D2 & EB & X). exists ds, w1. split; [assumption|]. split; [assumption|].
      split; [rewrite EB at 1; cbn; rewrite <- app_assoc; cbn; rewrite <- app_assoc; reflexivity|assumption].
  - pose proof (qshape_resume B c ch HS Hch LT G) as OK.
    destruct (q_resume (qc_st c) (len (B ++ ch)) (skipn (qc_cur c) (B ++ ch))) as [[body w|st|] r]; cbn in OK.
    + destruct (takeN w body) as [[q params]|] eqn:ET.
      * apply takeN_inv in ET as [-> <-]. auto.
      * apply takeN_none in ET. exists body, w. auto.
    + destruct OK as (pre & EP & SH).
      replace (List.length (B ++ ch) - List.length r)%nat with (List.length pre); [exact SH|].
      rewrite EP, app_length. lia.
    + reflexivity.
Qed.

Lemma qshape_reset : qshape [] qc_reset.
Proof. split; [reflexivity|]. split; [cbn; lia|]. cbn. auto. Qed.

(* ------------------------------------------------------------------ *)
(** * Responses: a client-side decoder *)

(** what a client sees of a cell: the type code and the value; a float as its decimal text *)
Inductive vcell :=
| VNull
| VBool (b : bool)
| VUInt (ty : N) (n : N)
| VSInt (ty : N) (z : Z)
| VFloat (ty : N) (text : bytes)
| VBin (b : bytes)
| VStr (b : bytes)
| VList (l : list vcell).

(** the text up to LF *)
Fixpoint until_lf (l : bytes) : option (bytes * bytes) :=
  match l with
  | [] => None
  | b :: r => if beq b LF then Some ([], r)
              else match until_lf r with Some (t, r') => Some (b :: t, r') | None => None end
  end.

Definition client_uint (t : bytes) : option N :=
  if forallb is_digit t then match t with [] => None | _ => Some (horner 0 t) end else None.
Definition client_sint (t : bytes) : option Z :=
  match t with
  | b :: d => if beq b x2d then match client_uint d with Some n => Some (- Z.of_N n)%Z | None => None end
              else match client_uint t with Some n => Some (Z.of_N n) | None => None end
  | [] => None
  end.

Fixpoint client_cell (fuel : nat) (l : bytes) : option (vcell * bytes) :=
  match fuel with
  | O => None
  | S f =>
      match l with
      | [] => None
      | b :: r =>
          let ty := b2n b in
          if ty =? 0 then Some (VNull, r)
          else if ty =? 1 then
            match r with
            | x :: r' => if beq x x00 then Some (VBool false, r') else if beq x x01 then Some (VBool true, r') else None
            | [] => None
            end
          else if ty <=? 5 then
            match until_lf r with
            | Some (t, r') => match client_uint t with Some n => Some (VUInt ty n, r') | None => None end
            | None => None
            end
          else if ty <=? 9 then
            match until_lf r with
            | Some (t, r') => match client_sint t with Some z => Some (VSInt ty z, r') | None => None end
            | None => None
            end
          else if ty <=? 11 then
            match until_lf r with Some (t, r') => Some (VFloat ty t, r') | None => None end
          else if ty <=? 13 then
            match until_lf r with
            | Some (t, r') =>
                match client_uint t with
                | Some n => match takeN n r' with
                            | Some (d, r'') => Some (if ty =? 12 then VBin d else VStr d, r'')
                            | None => None
                            end
                | None => None
                end
            | None => None
            end
          else if ty =? 14 then
            match until_lf r with
            | Some (t, r') =>
                match client_uint t with
                | Some n => match client_cells f n r' with
                            | Some (vs, r'') => Some (VList vs, r'')
                            | None => None
                            end
                | None => None
                end
            | None => None
            end
          else None
      end
  end
with client_cells (fuel : nat) (n : N) (l : bytes) : option (list vcell * bytes) :=
  match fuel with
  | O => None
  | S f =>
      if n =? 0 then Some ([], l)
      else match client_cell f l with
           | Some (v, r) =>
               match client_cells f (n - 1) r with
               | Some (vs, r') => Some (v :: vs, r')
               | None => None
               end
           | None => None
           end
  end.

Fixpoint client_rows (fuel : nat) (rows : N) (cols : N) (l : bytes) : option (list (list vcell) * bytes) :=
  match fuel with
  | O => None
  | S f =>
      if rows =? 0 then Some ([], l)
      else match client_cells (S (S (List.length l))) cols l with
           | Some (v, r) =>
               match client_rows f (rows - 1) cols r with
               | Some (vs, r') => Some (v :: vs, r')
               | None => None
               end
           | None => None
           end
  end.

(** what a client sees of a response *)
Inductive vresp :=
| WEmpty | WNull | WBool (b : bool) | WErr (code : N) | WStr (s : bytes)
| WRow (cells : list vcell) | WRows (cols : N) (rows : list (list vcell)).

Definition client_response (l : bytes) : option (vresp * bytes) :=
  match l with
  | [] => None
  | b :: r =>
      let ty := b2n b in
      if ty =? 0 then Some (WNull, r)
      else if ty =? 1 then
        match r with
        | x :: r' => if beq x x00 then Some (WBool false, r') else if beq x x01 then Some (WBool true, r') else None
        | [] => None
        end
      else if ty =? 13 then
        match until_lf r with
        | Some (t, r') => match client_uint t with
                          | Some n => match takeN n r' with Some (d, r'') => Some (WStr d, r'') | None => None end
                          | None => None
                          end
        | None => None
        end
      else if ty =? 16 then
        match r with
        | lo :: hi :: r' => Some (WErr (b2n lo + 256 * b2n hi), r')
        | _ => None
        end
      else if ty =? 17 then
        match until_lf r with
        | Some (t, r') => match client_uint t with
                          | Some n => match client_cells (S (S (List.length r'))) n r' with
                                      | Some (vs, r'') => Some (WRow vs, r'') | None => None end
                          | None => None
                          end
        | None => None
        end
      else if ty =? 18 then Some (WEmpty, r)
      else if ty =? 19 then
        match until_lf r with
        | Some (t, r') =>
            match client_uint t, until_lf r' with
            | Some n, Some (t2, r2) =>
                match client_uint t2 with
                | Some cols => match client_rows (S (N.to_nat n)) n cols r2 with
                               | Some (vs, r'') => Some (WRows cols vs, r'') | None => None end
                | None => None
                end
            | _, _ => None
            end
        | None => None
        end
      else None
  end.

Section Decode.
  Variable ftoa : N -> bytes.
  Hypothesis ftoa_no_lf : forall w, ~ In LF (ftoa w).

  (** the client's view of a stored cell *)
  Fixpoint view (c : cell) : vcell :=
    match c with
    | CNull => VNull
    | CBool b => VBool b
    | CQw q w =>
        match q with
        | QU8 | QU16 | QU32 | QU64 => VUInt (tsel_code (qsel_tsel q) + 1) w
        | QS8 | QS16 | QS32 | QS64 => VSInt (tsel_code (qsel_tsel q) + 1) (signed64 w)
        | QF32 | QF64 => VFloat (tsel_code (qsel_tsel q) + 1) (ftoa w)
        end
    | CBin b => VBin b
    | CStr b => VStr b
    | CList l => VList (map view l)
    end.

  (** sizes that fit in memory *)
  Fixpoint fits (c : cell) : Prop :=
    match c with
    | CNull | CBool _ => True
    | CQw _ w => w < two64
    | CBin b | CStr b => len b < two64
    | CList l => N.of_nat (List.length l) < two64 /\ (fix go l := match l with [] => True | x :: l' => fits x /\ go l' end) l
    end.
  Definition all_fit (l : list cell) : Prop := Forall fits l.

  Lemma fits_list l : fits (CList l) <-> N.of_nat (List.length l) < two64 /\ all_fit l.
  Proof.
    cbn. split; intros [A B]; split; try assumption; clear A.
    - induction l; [constructor|]. destruct B. constructor; auto. apply IHl; assumption.
    - induction B; [exact I|]. split; auto.
  Qed.

  Lemma until_lf_app t r : ~ In LF t -> until_lf (t ++ LF :: r) = Some (t, r).
  Proof.
    induction t as [|b t IH]; intros H; cbn.
    - reflexivity.
    - destruct (beq b LF) eqn:E; [apply beq_eq in E; subst; exfalso; apply H; left; reflexivity|].
      rewrite IH; [reflexivity|]. intros X. apply H. right. exact X.
  Qed.

  Lemma digits_no_lf t : all_digits t -> ~ In LF t.
  Proof.
    intros H X. unfold all_digits in H. rewrite Forall_forall in H. apply H in X. cbv in X. destruct X. congruence.
  Qed.

  Lemma digits_forallb t : all_digits t -> forallb is_digit t = true.
  Proof. intros H. apply forallb_forall. intros x Hx. unfold all_digits in H. rewrite Forall_forall in H. apply is_digit_iff. auto. Qed.

  Lemma client_uint_dec n t : dec_text n t -> client_uint t = Some n.
  Proof.
    intros (A & B & C & D). unfold client_uint. rewrite digits_forallb by assumption.
    destruct t; [congruence|]. rewrite C. reflexivity.
  Qed.

  Lemma dec_no_lf n : n < two64 -> ~ In LF (dec_u64 n).
  Proof. intros H. apply digits_no_lf. apply dec_u64_text. assumption. Qed.

  Lemma client_num n r : n < two64 -> until_lf (dec_u64 n ++ LF :: r) = Some (dec_u64 n, r) /\
    client_uint (dec_u64 n) = Some n.
  Proof.
    intros H. split; [apply until_lf_app, dec_no_lf; assumption|apply client_uint_dec, dec_u64_text; assumption].
  Qed.

  Lemma signed64_range w : w < two64 -> (-9223372036854775808 <= signed64 w < 9223372036854775808)%Z.
  Proof. intros H. unfold signed64, two64 in *. destruct (N.ltb_spec w 9223372036854775808); lia. Qed.

  Lemma client_sint_text z t : int_text z t -> client_sint t = Some z /\ ~ In LF t.
  Proof.
    unfold int_text. destruct (Z.ltb_spec z 0) as [H|H].
    - intros (d & -> & D). split.
      + cbn. rewrite (client_uint_dec _ _ D). f_equal. lia.
      + intros [X|X]; [discriminate|]. apply (digits_no_lf d); [apply D|exact X].
    - intros D. split; [|apply digits_no_lf; apply D].
      unfold client_sint. rewrite (client_uint_dec _ _ D). destruct D as (D1 & D2 & _).
      destruct t as [|b t]; [congruence|]. inversion D2; subst.
      destruct (beq b x2d) eqn:E; [apply beq_eq in E; subst; cbv in H2; exfalso; destruct H2; congruence|].
      f_equal. lia.
  Qed.

  (** fuel needed *)
  Definition encs (l : list cell) : bytes := flat_map (enc_cell ftoa) l.

  Lemma enc_len c : (1 <= List.length (enc_cell ftoa c))%nat.
  Proof. destruct c; cbn [enc_cell List.length]; lia. Qed.

  Lemma client_cell_spec c : fits c -> forall fuel rest, (List.length (enc_cell ftoa c) <= fuel)%nat ->
    client_cell fuel (enc_cell ftoa c ++ rest) = Some (view c, rest).
  Proof.
    induction c as [ | b | q w | b | b | l IH ] using cell_ind'; intros F fuel rest HF.
    - destruct fuel; [cbn in HF; lia|]. reflexivity.
    - destruct fuel; [cbn in HF; lia|]. destruct b; reflexivity.
    - destruct fuel; [cbn [enc_cell List.length] in HF; lia|].
      cbn [fits] in F.
      assert (UU : forall (code : byte) (T : N) R, until_lf ((dec_u64 w ++ [LF]) ++ R) = Some (dec_u64 w, R)).
      { intros _ _ R. rewrite <- app_assoc. apply client_num. assumption. }
      destruct (client_num w [] F) as [_ CU].
      destruct (client_sint_text (signed64 w) (dec_i64 (signed64 w))) as [CS CL].
      { apply dec_i64_text, signed64_range. assumption. }
      destruct q; cbn [enc_cell app qsel_tsel tsel_class cell_sel client_cell view]; cbn -[client_uint until_lf client_sint dec_u64 dec_i64 signed64];
        rewrite <- app_assoc; cbn [app];
        rewrite until_lf_app by (first [apply dec_no_lf; assumption | assumption | apply ftoa_no_lf]);
        rewrite ?CU, ?CS; reflexivity.
    - destruct fuel; [cbn [enc_cell List.length] in HF; lia|]. cbn [fits] in F.
      destruct (client_num (len b) (b ++ rest) F) as [U1 U2].
      cbn [enc_cell app cell_sel client_cell view].
      rewrite <- !app_assoc. cbn -[client_uint until_lf dec_u64 takeN]. rewrite U1, U2, takeN_exact. reflexivity.
    - destruct fuel; [cbn [enc_cell List.length] in HF; lia|]. cbn [fits] in F.
      destruct (client_num (len b) (b ++ rest) F) as [U1 U2].
      cbn [enc_cell app cell_sel client_cell view].
      rewrite <- !app_assoc. cbn -[client_uint until_lf dec_u64 takeN]. rewrite U1, U2, takeN_exact. reflexivity.
    - destruct fuel; [cbn [enc_cell List.length] in HF; lia|].
      apply fits_list in F as [FL FA].
      destruct (client_num (N.of_nat (List.length l)) (encs l ++ rest) FL) as [U1 U2].
      assert (FU : (S (List.length (encs l)) <= fuel)%nat).
      { cbn [enc_cell List.length] in HF. rewrite !app_length in HF. cbn [List.length] in HF.
        fold (encs l) in HF. lia. }
      cbn [enc_cell app cell_sel]. fold (encs l). rewrite <- !app_assoc.
      cbn [client_cell]. change (b2n (n2b (tsel_code TsList + 1))) with 14.
      cbn [N.eqb N.leb N.compare Pos.compare Pos.compare_cont Pos.eqb]. cbn [app].
      rewrite U1, U2.
      assert (G : client_cells fuel (N.of_nat (List.length l)) (encs l ++ rest) = Some (map view l, rest)).
      { clear U1 U2 FL HF. revert fuel FU. induction l as [|x l IHl]; intros fuel FU.
        - destruct fuel; [lia|]. reflexivity.
        - destruct fuel; [lia|]. inversion IH; subst. inversion FA; subst.
          cbn [client_cells List.length encs flat_map map] in *. fold (encs l) in *.
          rewrite app_length in FU. pose proof (enc_len x).
          destruct (N.eqb_spec (N.of_nat (S (List.length l))) 0); [lia|].
          rewrite <- app_assoc. rewrite H1 by (try assumption; lia).
          replace (N.of_nat (S (List.length l)) - 1) with (N.of_nat (List.length l)) by lia.
          rewrite IHl by (try assumption; lia). reflexivity. }
      rewrite G. reflexivity.
  Qed.

  Lemma client_cells_spec l : all_fit l -> forall fuel rest, (S (List.length (encs l)) <= fuel)%nat ->
    client_cells fuel (N.of_nat (List.length l)) (encs l ++ rest) = Some (map view l, rest).
  Proof.
    induction 1 as [|x l F FA IH]; intros fuel rest HF.
    - destruct fuel; [lia|]. reflexivity.
    - destruct fuel; [lia|]. cbn [client_cells List.length encs flat_map map] in *. fold (encs l) in *.
      rewrite app_length in HF. pose proof (enc_len x).
      destruct (N.eqb_spec (N.of_nat (S (List.length l))) 0); [lia|].
      rewrite <- app_assoc. rewrite client_cell_spec by (try assumption; lia).
      replace (N.of_nat (S (List.length l)) - 1) with (N.of_nat (List.length l)) by lia.
      rewrite IH by lia. reflexivity.
  Qed.

  Lemma client_rows_spec cols rows : Forall all_fit rows ->
    Forall (fun r => N.of_nat (List.length r) = cols) rows -> forall fuel rest, (List.length rows < fuel)%nat ->
    client_rows fuel (N.of_nat (List.length rows)) cols (flat_map (flat_map (enc_cell ftoa)) rows ++ rest)
      = Some (map (map view) rows, rest).
  Proof.
    intros FA HC. induction HC as [|row rows HR HC IH]; intros fuel rest HF.
    - destruct fuel; [cbn in HF; lia|]. reflexivity.
    - destruct fuel; [cbn in HF; lia|]. inversion FA; subst. cbn [client_rows List.length flat_map map] in *.
      destruct (N.eqb_spec (N.of_nat (S (List.length rows))) 0); [lia|].
      rewrite <- app_assoc. change (flat_map (enc_cell ftoa) row) with (encs row).
      rewrite client_cells_spec; [|assumption|rewrite app_length; lia].
      replace (N.of_nat (S (List.length rows)) - 1) with (N.of_nat (List.length rows)) by lia.
      rewrite IH by (try assumption; lia). reflexivity.
  Qed.
End Decode.

(** a connection whose announced size ended before the second number did *)
Definition underfull (c : qconn) : Prop :=
  q_phase (qc_st c) = QData /\ (qc_cur c <= List.length (qc_buf c))%nat /\
  q_target (qc_st c) < N.of_nat (qc_cur c).

Lemma underfull_stuck chunks : Forall (fun ch => ch <> []) chunks -> forall c, underfull c ->
  2 * len (qc_buf c ++ concat chunks) < two64 ->
  exists c', q_run c chunks = ([], QRunning c') /\ underfull c'.
Proof.
  induction 1 as [|ch chunks Hch HN IH]; intros c (HP & HC & HT) LT.
  - exists c. unfold underfull. auto.
  - cbn [concat q_run] in *. unfold q_read. destruct ch as [|h ch']; [congruence|]. set (ch := h :: ch') in *.
    rewrite app_assoc in LT. rewrite len_app in LT.
    assert (HCN : N.of_nat (qc_cur c) <= len (qc_buf c)) by (unfold len; lia).
    assert (LL : len (qc_buf c ++ ch) = len (qc_buf c) + 1 + len ch').
    { rewrite len_app. unfold ch. rewrite len_cons. lia. }
    destruct (N.ltb_spec (len (qc_buf c ++ ch)) (q_target (qc_st c))); [lia|].
    unfold q_resume. rewrite HP. unfold q_data.
    assert (SL : len (skipn (qc_cur c) (qc_buf c ++ ch)) = len (qc_buf c ++ ch) - N.of_nat (qc_cur c)).
    { unfold len. rewrite skipn_length. lia. }
    rewrite SL.
    replace (len (qc_buf c ++ ch) - (len (qc_buf c ++ ch) - N.of_nat (qc_cur c))) with (N.of_nat (qc_cur c)) by lia.
    assert (WS : wsub (q_target (qc_st c)) (N.of_nat (qc_cur c)) = q_target (qc_st c) + two64 - N.of_nat (qc_cur c)).
    { unfold wsub. apply N.mod_small. lia. }
    rewrite WS.
    destruct (N.eqb_spec (len (qc_buf c ++ ch) - N.of_nat (qc_cur c)) (q_target (qc_st c) + two64 - N.of_nat (qc_cur c))); [lia|].
    apply IH.
    + split; [reflexivity|]. cbn [qc_st qc_cur qc_buf q_target].
      assert (EL : (List.length (qc_buf c ++ ch) - List.length (skipn (qc_cur c) (qc_buf c ++ ch)) = qc_cur c)%nat).
      { rewrite skipn_length, app_length. lia. }
      rewrite EL. split; [rewrite app_length; lia|]. lia.
    + cbn [qc_buf]. rewrite len_app. exact LT.
Qed.
