(** C116: an order of effects for every interleaving. *)
From Coq Require Import List NArith Bool Arith Lia Sorting.Sorted.
From Verif Require Import DataModel RowModel RowTable ConcModel ConcSpec.
Import ListNotations.
Local Open Scope nat_scope.

(** ** Lists *)
Lemma rep_length A (l : list A) i x : i < length l -> length (rep l i x) = length l.
Proof. intros H. unfold rep. rewrite app_length, firstn_length. cbn [length]. rewrite skipn_length. lia. Qed.
Lemma rep_split A (l : list A) i y x : nth_error l i = Some y -> exists a b, l = a ++ y :: b /\ length a = i /\ rep l i x = a ++ x :: b.
Proof.
  intros E. destruct (nth_error_split l i E) as (a & b & -> & L). exists a, b. split; [reflexivity|]. split; [exact L|]. unfold rep. subst i.
  rewrite firstn_app, Nat.sub_diag, firstn_O, app_nil_r, firstn_all. rewrite skipn_app. replace (S (length a) - length a) with 1 by lia. rewrite skipn_all2 by lia. reflexivity.
Qed.
Lemma rep_same A (l : list A) i y x : nth_error l i = Some y -> nth_error (rep l i x) i = Some x.
Proof. intros E. destruct (rep_split _ _ _ _ x E) as (a & b & _ & L & ->). rewrite nth_error_app2 by lia. replace (i - length a) with 0 by lia. reflexivity. Qed.
Lemma rep_other A (l : list A) i j y x : nth_error l i = Some y -> j <> i -> nth_error (rep l i x) j = nth_error l j.
Proof.
  intros E D. destruct (rep_split _ _ _ _ x E) as (a & b & -> & L & ->). destruct (Nat.lt_ge_cases j (length a)) as [Lt|Ge].
  - now rewrite !nth_error_app1 by exact Lt.
  - rewrite !nth_error_app2 by exact Ge. destruct (j - length a) as [|n] eqn:K; [lia|]. reflexivity.
Qed.
Lemma kset_same A (f : pkey -> A) k x : kset f k x k = x.
Proof. unfold kset. now rewrite pkey_eqb_refl. Qed.
Lemma kset_other A (f : pkey -> A) k x j : j <> k -> kset f k x j = f j.
Proof. intros D. unfold kset. destruct (pkey_eqb j k) eqn:E; [apply pkey_eqb_eq in E; contradiction|reflexivity]. Qed.
Lemma key_dec (a b : pkey) : {a = b} + {a <> b}.
Proof. destruct (pkey_eqb a b) eqn:E; [left; now apply pkey_eqb_eq|right; intros H; apply pkey_eqb_eq in H; congruence]. Qed.
Lemma nth_snoc A (l : list A) x i y : nth_error (l ++ [x]) i = Some y -> nth_error l i = Some y \/ (i = length l /\ y = x).
Proof.
  intros H. destruct (Nat.lt_ge_cases i (length l)) as [Lt|Ge].
  - rewrite nth_error_app1 in H by exact Lt. now left.
  - rewrite nth_error_app2 in H by exact Ge. destruct (i - length l) as [|n] eqn:K; [|destruct n; discriminate H]. cbn in H. injection H as <-. right. split; [lia|reflexivity].
Qed.
Lemma sorted_app_one l x : StronglySorted le l -> Forall (fun y => y <= x) l -> StronglySorted le (l ++ [x]).
Proof.
  induction 1 as [|a l H IH Fa]; intros Fx; [repeat constructor|]. inversion Fx; subst. cbn. constructor; [auto|]. apply Forall_app. split; [exact Fa|repeat constructor; assumption].
Qed.
Lemma sorted_insert a x b : StronglySorted le (a ++ x :: b) -> StronglySorted le (a ++ x :: x :: b).
Proof.
  induction a as [|y a IH]; cbn; intros H; inversion H; subst.
  - constructor; [exact H|]. constructor; [lia|exact H3].
  - constructor; [auto|]. apply Forall_app in H3 as [A B]. apply Forall_app. split; [exact A|]. inversion B; subst. constructor; [assumption|exact B].
Qed.

Section P.
Variables V F : Type.
Variable app : F -> V -> V * bool.
Variable ord : list nat -> list nat.
Notation cst := (cst V F).
Notation eff := (eff V F).
Notation answer := (answer app).
Notation after := (after app).
Notation final := (final app).
Notation in_turn := (in_turn app).
Notation T0 := (fun _ : pkey => @None V).

(** ** Tables *)
Definition teq (a b : tab V) : Prop := forall k, a k = b k.
Lemma answer_ext a b s : teq a b -> answer a s = answer b s.
Proof. intros E. destruct s; cbn; rewrite ?E; reflexivity. Qed.
Lemma kset_ext A (a b : pkey -> A) k x : (forall j, a j = b j) -> forall j, kset a k x j = kset b k x j.
Proof. intros E j. unfold kset. now rewrite E. Qed.
Lemma after_ext a b s : teq a b -> teq (after a s) (after b s).
Proof. intros E. destruct s; cbn; rewrite ?E; try exact E; [destruct (b k); [exact E|]|destruct (b k); [|exact E]|]; intros j; now apply kset_ext. Qed.
Lemma final_ext L : forall a b, teq a b -> teq (final a L) (final b L).
Proof. induction L as [|e L IH]; intros a b E; [exact E|]. cbn. apply IH, after_ext, E. Qed.
Lemma turn_ext L : forall a b, teq a b -> in_turn a L -> in_turn b L.
Proof. induction L as [|e L IH]; intros a b E; [auto|]. cbn. intros [A H]. split; [rewrite A; apply answer_ext, E|]. eapply IH; [apply after_ext, E|exact H]. Qed.
Lemma final_app a L1 L2 : final a (L1 ++ L2) = final (final a L1) L2.
Proof. unfold ConcSpec.final. apply fold_left_app. Qed.
Lemma turn_app L1 : forall a L2, in_turn a (L1 ++ L2) <-> in_turn a L1 /\ in_turn (final a L1) L2.
Proof. induction L1 as [|e L1 IH]; intros a L2; cbn; [tauto|]. rewrite IH. tauto. Qed.

(** the key of a statement *)
Definition key_of (s : cstmt V F) : option pkey := match s with CIns k _ | CUpd k _ | CDel k | CSel k => Some k | CAll => None end.
Lemma after_other T s k j : key_of s = Some k -> j <> k -> after T s j = T j.
Proof.
  intros K D. destruct s; cbn in K; try discriminate K; injection K as <-; cbn.
  - destruct (T k0); [reflexivity|]. now apply kset_other.
  - destruct (T k0); [|reflexivity]. now apply kset_other.
  - now apply kset_other.
  - reflexivity.
Qed.
(** a statement on [k] just before a deletion of [k] makes no difference after it *)
Lemma before_delete T s k : key_of s = Some k -> teq (after (after T s) (CDel k)) (after T (CDel k)).
Proof.
  intros K j. cbn. destruct (key_dec j k) as [->|D]; [now rewrite !kset_same|]. rewrite !kset_other by exact D. eapply after_other; eassumption.
Qed.

(** ** The invariant *)
Definition took (t : ctask V F) : option (cans V) :=
  match ct_pc t with
  | PInsQ _ _ | PUpdQ _ _ | PDelQ _ _ => Some CAok
  | PDone a _ => match ct_st t with CAll => None | _ => Some a end
  | _ => None
  end.
Definition holds (t : ctask V F) : option nat :=
  match ct_pc t with PUpdRow o | PUpdLock o | PUpdNum o _ | PUpdQ o _ | PSelRow o => Some o | _ => None end.
(** a statement is where such a statement can be *)
Definition fits (t : ctask V F) : Prop :=
  match ct_st t, ct_pc t with
  | _, PNew | _, PDone _ _ => True
  | CIns _ _, (PInsNum _ | PInsQ _ _) => True
  | CUpd _ _, (PUpdRow _ | PUpdLock _ | PUpdNum _ _ | PUpdQ _ _) => True
  | CDel _, (PDelNum _ | PDelQ _ _) => True
  | CSel _, PSelRow _ => True
  | CAll, PScan _ _ => True
  | _, _ => False
  end.

Record tinv (tasks : list (ctask V F)) (now : nat) (L : list eff) : Prop := mk_tinv {
  ti_sort : StronglySorted le (map ef_at L);
  ti_nd : NoDup (map ef_id L);
  ti_in : forall e, In e L -> ef_st e <> CAll /\ exists t, nth_error tasks (ef_id e) = Some t /\ ct_st t = ef_st e /\ took t = Some (ef_ans e) /\
    ct_inv t <= ef_at e < now /\ forall a m, ct_pc t = PDone a m -> ef_at e <= m;
  ti_all : forall i t a, nth_error tasks i = Some t -> took t = Some a -> In i (map ef_id L);
  ti_inv : forall i t, nth_error tasks i = Some t -> ct_inv t < now;
  ti_fits : forall i t, nth_error tasks i = Some t -> fits t }.

Record oinv (objs : list (obj V)) (idx : pkey -> option nat) (tasks : list (ctask V F)) (L : list eff) : Prop := mk_oinv {
  oi_idx : forall k o, idx k = Some o -> exists b, nth_error objs o = Some b /\ ob_key b = k /\ ob_gone b = None;
  oi_live : forall o b, nth_error objs o = Some b -> ob_gone b = None -> idx (ob_key b) = Some o;
  oi_fin : forall k, final T0 L k = match idx k with Some o => option_map ob_val (nth_error objs o) | None => None end;
  oi_dead : forall o b d, nth_error objs o = Some b -> ob_gone b = Some d -> exists A e B, L = A ++ e :: B /\ ef_id e = d /\ ef_st e = CDel (ob_key b) /\
    final T0 A (ob_key b) = Some (ob_val b) /\ forall i t, nth_error tasks i = Some t -> holds t = Some o -> ct_inv t <= ef_at e;
  oi_gone : forall o o' b b' d, nth_error objs o = Some b -> nth_error objs o' = Some b' -> ob_gone b = Some d -> ob_gone b' = Some d -> o = o';
  oi_hold : forall i t o, nth_error tasks i = Some t -> holds t = Some o -> exists b, nth_error objs o = Some b /\ key_of (ct_st t) = Some (ob_key b) }.

Definition linv (c : cst) (L : list eff) : Prop :=
  in_turn T0 L /\ tinv (c_tasks c) (c_now c) L /\ oinv (c_objs c) (c_idx c) (c_tasks c) L.

Lemma linv_explains c L : linv c L -> explains app c L.
Proof.
  intros (T & TI & OI). split; [exact T|]. split; [apply TI|]. split; [apply TI|]. split; [|split; [|apply OI]].
  - intros e I. destruct (ti_in _ _ _ TI e I) as (P & t & E & S1 & K & W & D). split; [exact P|]. exists t. repeat (split; [assumption|]).
    intros a m PC. split; [|apply (D _ _ PC)]. unfold took in K. rewrite PC in K. destruct (ct_st t); congruence.
  - intros i t a m E PC NA. apply (ti_all _ _ _ TI i t a E). unfold took. rewrite PC. destruct (ct_st t); congruence.
Qed.

(** ** Moves of one task *)

(** a task that has no new effect *)
Lemma tinv_quiet tasks now L i t pc : tinv tasks now L -> nth_error tasks i = Some t -> fits (mk_ct (ct_st t) (ct_inv t) pc) ->
  took (mk_ct (ct_st t) (ct_inv t) pc) = took t -> (forall a m, pc = PDone a m -> m = now) ->
  tinv (rep tasks i (mk_ct (ct_st t) (ct_inv t) pc)) (S now) L.
Proof.
  intros [A B C D E G] N FI TK M. set (t' := mk_ct (ct_st t) (ct_inv t) pc) in *.
  assert (W : forall j x, nth_error (rep tasks i t') j = Some x -> (j = i /\ x = t') \/ (j <> i /\ nth_error tasks j = Some x)).
  { intros j x H. destruct (Nat.eq_dec j i) as [->|J]; [left; rewrite (rep_same _ _ _ _ t' N) in H; injection H as <-; auto|right; rewrite (rep_other _ _ _ _ _ t' N J) in H; auto]. }
  constructor; auto.
  - intros e I. destruct (C e I) as (P & x & X1 & X2 & X3 & X4 & X5). split; [exact P|]. destruct (Nat.eq_dec (ef_id e) i) as [Q|Q].
    + rewrite Q in *. rewrite N in X1. injection X1 as <-. exists t'. split; [eapply rep_same; exact N|]. split; [exact X2|]. split; [rewrite TK; exact X3|]. cbn [t' ct_inv ct_pc].
      split; [lia|]. intros a m Y. rewrite (M a m Y). lia.
    + exists x. rewrite (rep_other _ _ _ _ _ t' N Q). repeat (split; [assumption|]). split; [lia|exact X5].
  - intros j x a H K. destruct (W j x H) as [[-> ->]|[J X]]; [rewrite TK in K; eapply D; eassumption|eapply D; eassumption].
  - intros j x H. destruct (W j x H) as [[-> ->]|[J X]]; [specialize (E _ _ N); cbn [t' ct_inv]; lia|specialize (E _ _ X); lia].
  - intros j x H. destruct (W j x H) as [[-> ->]|[J X]]; [exact FI|eapply G; exact X].
Qed.

(** a task that takes effect, at the end or just before the entry [d] *)
Lemma tinv_effect tasks now A B i t pc a m : tinv tasks now (A ++ B) -> nth_error tasks i = Some t -> fits (mk_ct (ct_st t) (ct_inv t) pc) ->
  took t = None -> took (mk_ct (ct_st t) (ct_inv t) pc) = Some a -> ct_st t <> CAll -> (forall a m, pc = PDone a m -> m = now) ->
  ct_inv t <= m <= now -> match B with [] => m = now | d :: _ => m = ef_at d end ->
  tinv (rep tasks i (mk_ct (ct_st t) (ct_inv t) pc)) (S now) (A ++ mk_eff i (ct_st t) a m :: B).
Proof.
  intros [SO ND IN AL IV FT] N FI TN TK NA M WM EM. set (t' := mk_ct (ct_st t) (ct_inv t) pc) in *. set (e0 := mk_eff i (ct_st t) a m).
  assert (NI : ~ In i (map ef_id (A ++ B))).
  { intros I. apply in_map_iff in I. destruct I as (e & Q & I). destruct (IN e I) as (_ & x & X1 & _ & X3 & _). rewrite Q, N in X1. injection X1 as <-. congruence. }
  assert (W : forall j x, nth_error (rep tasks i t') j = Some x -> (j = i /\ x = t') \/ (j <> i /\ nth_error tasks j = Some x)).
  { intros j x H. destruct (Nat.eq_dec j i) as [->|J]; [left; rewrite (rep_same _ _ _ _ t' N) in H; injection H as <-; auto|right; rewrite (rep_other _ _ _ _ _ t' N J) in H; auto]. }
  assert (BD : Forall (fun y => y <= now) (map ef_at (A ++ B))).
  { apply Forall_forall. intros y I. apply in_map_iff in I. destruct I as (e & <- & I). destruct (IN e I) as (_ & x & _ & _ & _ & X & _). lia. }
  constructor.
  - rewrite map_app in *. cbn [map]. destruct B as [|d B]; cbn [map e0 ef_at] in *.
    + rewrite app_nil_r in *. subst m. apply sorted_app_one; assumption.
    + subst m. apply sorted_insert. exact SO.
  - rewrite map_app in *. cbn [map e0 ef_id]. apply NoDup_Add with (a := i) (l := map ef_id A ++ map ef_id B); [apply Add_app|]. split; assumption.
  - intros e I. assert (I' : e = e0 \/ In e (A ++ B)) by (apply in_app_iff in I; rewrite in_app_iff; destruct I as [I|[I|I]]; auto).
    destruct I' as [->|I'].
    + split; [exact NA|]. exists t'. cbn [e0 ef_id ef_st ef_ans ef_at]. split; [eapply rep_same; exact N|]. split; [reflexivity|]. split; [exact TK|]. split; [cbn [t' ct_inv]; lia|].
      intros a1 m1 Q. rewrite (M _ _ Q). lia.
    + destruct (IN e I') as (P & x & X1 & X2 & X3 & X4 & X5). split; [exact P|]. exists x. destruct (Nat.eq_dec (ef_id e) i) as [Q|Q].
      * exfalso. apply NI. rewrite <- Q. apply in_map. exact I'.
      * rewrite (rep_other _ _ _ _ _ t' N Q). repeat (split; [assumption|]). split; [lia|exact X5].
  - intros j x b H K. rewrite map_app. cbn [map e0 ef_id]. apply in_app_iff. destruct (W j x H) as [[-> ->]|[J X]]; [right; left; reflexivity|].
    specialize (AL _ _ _ X K). rewrite map_app in AL. apply in_app_iff in AL. destruct AL; [left; assumption|right; right; assumption].
  - intros j x H. destruct (W j x H) as [[-> ->]|[J X]]; [specialize (IV _ _ N); cbn [t' ct_inv]; lia|specialize (IV _ _ X); lia].
  - intros j x H. destruct (W j x H) as [[-> ->]|[J X]]; [exact FI|eapply FT; exact X].
Qed.

(** rows that differ only in number and lock *)
Definition alike (a b : list (obj V)) : Prop :=
  length a = length b /\ forall o x, nth_error a o = Some x -> exists y, nth_error b o = Some y /\ ob_key y = ob_key x /\ ob_val y = ob_val x /\ ob_gone y = ob_gone x.
Lemma alike_refl a : alike a a.
Proof. split; [reflexivity|]. intros o x E. eauto. Qed.
Lemma alike_sym a b : alike a b -> alike b a.
Proof.
  intros [L H]. split; [congruence|]. intros o y E. destruct (nth_error a o) as [x|] eqn:X.
  - destruct (H o x X) as (y' & E' & A & B & C). rewrite E in E'. injection E' as <-. eauto.
  - exfalso. apply nth_error_None in X. assert (o < length b) by (apply nth_error_Some; congruence). lia.
Qed.
Lemma alike_rep a o x y : nth_error a o = Some x -> ob_key y = ob_key x -> ob_val y = ob_val x -> ob_gone y = ob_gone x -> alike a (rep a o y).
Proof.
  intros E A B C. split; [symmetry; apply rep_length; apply nth_error_Some; congruence|]. intros j z Z. destruct (Nat.eq_dec j o) as [->|D].
  - rewrite E in Z. injection Z as <-. exists y. split; [eapply rep_same; exact E|auto].
  - exists z. rewrite (rep_other _ _ _ _ _ y E D). auto.
Qed.

(** tasks that hold no more rows than before, unless rows in the index *)
Lemma oinv_quiet objs objs' idx tasks tasks' L : oinv objs idx tasks L -> alike objs objs' ->
  (forall i t o, nth_error tasks' i = Some t -> holds t = Some o ->
     (exists t0, nth_error tasks i = Some t0 /\ holds t0 = Some o /\ ct_st t = ct_st t0 /\ ct_inv t = ct_inv t0) \/
     (exists k, key_of (ct_st t) = Some k /\ idx k = Some o)) -> oinv objs' idx tasks' L.
Proof.
  intros [OX OV OF OD OG OH] [LE AK] HO. pose proof (alike_sym _ _ (conj LE AK)) as [_ BK]. constructor.
  - intros k o X. destruct (OX k o X) as (b & E & K & G). destruct (AK o b E) as (y & E' & A & B & C). exists y. split; [exact E'|]. split; congruence.
  - intros o y E G. destruct (BK o y E) as (x & E' & A & B & C). rewrite <- A. apply OV; congruence.
  - intros k. rewrite OF. destruct (idx k) as [o|]; [|reflexivity]. destruct (nth_error objs o) as [x|] eqn:X.
    + destruct (AK o x X) as (y & -> & _ & Q & _). cbn. congruence.
    + apply nth_error_None in X. rewrite LE in X. apply nth_error_None in X. rewrite X. reflexivity.
  - intros o y d E G. destruct (BK o y E) as (x & E' & A & B & C). destruct (OD o x d E' ltac:(congruence)) as (LA & e & LB & EL & E1 & E2 & E3 & E4).
    exists LA, e, LB. split; [exact EL|]. split; [exact E1|]. rewrite <- A, <- B. split; [exact E2|]. split; [exact E3|].
    intros i t N H. destruct (HO i t o N H) as [(t0 & N0 & H0 & _ & I0)|(k & K & X)]; [rewrite I0; apply (E4 i t0 N0 H0)|].
    destruct (OX k o X) as (b & Eb & _ & Gb). rewrite E' in Eb. injection Eb as <-. congruence.
  - intros o o' y y' d E E' G G'. destruct (BK o y E) as (x & X & _ & _ & C). destruct (BK o' y' E') as (x' & X' & _ & _ & C'). apply (OG o o' x x' d X X'); congruence.
  - intros i t o N H. destruct (HO i t o N H) as [(t0 & N0 & H0 & S0 & I0)|(k & K & X)].
    + destruct (OH i t0 o N0 H0) as (b & E & K). destruct (AK o b E) as (y & Y & A & _). exists y. split; [exact Y|]. rewrite S0, K, A. reflexivity.
    + destruct (OX k o X) as (b & E & Q & _). destruct (AK o b E) as (y & Y & A & _). exists y. split; [exact Y|]. rewrite K, A, Q. reflexivity.
Qed.
(** ** Effects *)
Lemma oinv_more objs idx tasks L e : oinv objs idx tasks L -> teq (after (final T0 L) (ef_st e)) (final T0 L) -> oinv objs idx tasks (L ++ [e]).
Proof.
  intros [OX OV OF OD OG OH] E. constructor; auto.
  - intros k. rewrite final_app. cbn. rewrite E. apply OF.
  - intros o b d N G. destruct (OD o b d N G) as (A & x & B & -> & X). exists A, x, (B ++ [e]). rewrite <- app_assoc. split; [reflexivity|exact X].
Qed.

(** a new row *)
Lemma oinv_insert objs idx tasks L e k x v : oinv objs idx tasks L -> idx k = None -> ef_st e = CIns k x ->
  oinv (objs ++ [mk_obj k x v false None]) (kset idx k (Some (length objs))) tasks (L ++ [e]).
Proof.
  intros [OX OV OF OD OG OH] IK SE.
  assert (OLD : forall o b, nth_error objs o = Some b -> nth_error (objs ++ [mk_obj k x v false None]) o = Some b).
  { intros o b E. rewrite nth_error_app1; [exact E|]. apply nth_error_Some. congruence. }
  assert (NEW : nth_error (objs ++ [mk_obj k x v false None]) (length objs) = Some (mk_obj k x v false None)) by (rewrite nth_error_app2, Nat.sub_diag by lia; reflexivity).
  constructor.
  - intros j o X. destruct (key_dec j k) as [->|D].
    + rewrite kset_same in X. injection X as <-. eexists. split; [exact NEW|]. split; reflexivity.
    + rewrite kset_other in X by exact D. destruct (OX j o X) as (b & E & K). exists b. split; [apply OLD, E|exact K].
  - intros o b N G. apply nth_snoc in N. destruct N as [N|[-> ->]]; [|cbn [ob_key]; apply kset_same].
    pose proof (OV o b N G) as X. rewrite kset_other; [exact X|]. congruence.
  - intros j. rewrite final_app. cbn. rewrite SE. cbn. rewrite (OF k), IK. destruct (key_dec j k) as [->|D].
    + rewrite !kset_same, NEW. reflexivity.
    + rewrite !kset_other by exact D. rewrite OF. destruct (idx j) as [o|] eqn:J; [|reflexivity]. destruct (OX j o J) as (b & E & _). rewrite (OLD o b E), E. reflexivity.
  - intros o b d N G. apply nth_snoc in N. destruct N as [N|[_ ->]]; [|discriminate G]. destruct (OD o b d N G) as (A & y & B & -> & X). exists A, y, (B ++ [e]). rewrite <- app_assoc. split; [reflexivity|exact X].
  - intros o o' b b' d N N' G G'. apply nth_snoc in N. apply nth_snoc in N'. destruct N as [N|[_ ->]]; [|discriminate G]. destruct N' as [N'|[_ ->]]; [|discriminate G']. exact (OG o o' b b' d N N' G G').
  - intros i t o N H. destruct (OH i t o N H) as (b & E & K). exists b. split; [apply OLD, E|exact K].
Qed.

(** a row in the index changed *)
Lemma oinv_update objs idx tasks L e o b f y b' : oinv objs idx tasks L -> nth_error objs o = Some b -> ob_gone b = None -> ef_st e = CUpd (ob_key b) f ->
  fst (app f (ob_val b)) = y -> ob_key b' = ob_key b -> ob_val b' = y -> ob_gone b' = None -> oinv (rep objs o b') idx tasks (L ++ [e]).
Proof.
  intros [OX OV OF OD OG OH] NO GO SE AP K' V' G'.
  assert (W : forall j x, nth_error (rep objs o b') j = Some x -> (j = o /\ x = b') \/ (j <> o /\ nth_error objs j = Some x)).
  { intros j x H. destruct (Nat.eq_dec j o) as [->|J]; [left; rewrite (rep_same _ _ _ _ b' NO) in H; injection H as <-; auto|right; rewrite (rep_other _ _ _ _ _ b' NO J) in H; auto]. }
  pose proof (OV o b NO GO) as IO.
  constructor.
  - intros k j X. destruct (OX k j X) as (z & E & Q). destruct (Nat.eq_dec j o) as [->|J].
    + rewrite NO in E. injection E as <-. exists b'. split; [eapply rep_same; exact NO|]. destruct Q. split; congruence.
    + exists z. rewrite (rep_other _ _ _ _ _ b' NO J). auto.
  - intros j x N G. destruct (W j x N) as [[-> ->]|[J X]]; [rewrite K'; exact IO|eapply OV; eassumption].
  - intros k. rewrite final_app. cbn. rewrite SE. cbn. rewrite (OF (ob_key b)), IO, NO. cbn [option_map]. destruct (key_dec k (ob_key b)) as [->|D].
    + rewrite kset_same, IO, (rep_same _ _ _ _ b' NO). cbn. congruence.
    + rewrite kset_other by exact D. rewrite OF. destruct (idx k) as [j|] eqn:J; [|reflexivity]. rewrite (rep_other _ _ _ _ _ b' NO); [reflexivity|].
      intros ->. destruct (OX k o J) as (z & E & Q & _). congruence.
  - intros j x d N G. destruct (W j x N) as [[-> ->]|[J X]]; [congruence|]. destruct (OD j x d X G) as (A & z & B & -> & R). exists A, z, (B ++ [e]). rewrite <- app_assoc. split; [reflexivity|exact R].
  - intros j j' x x' d N N' Gx Gx'. destruct (W j x N) as [[-> ->]|[J X]]; [congruence|]. destruct (W j' x' N') as [[-> ->]|[J' X']]; [congruence|]. exact (OG j j' x x' d X X' Gx Gx').
  - intros i t j N H. destruct (OH i t j N H) as (z & E & Q). destruct (Nat.eq_dec j o) as [->|J].
    + rewrite NO in E. injection E as <-. exists b'. split; [eapply rep_same; exact NO|congruence].
    + exists z. rewrite (rep_other _ _ _ _ _ b' NO J). auto.
Qed.

(** a row taken out of the index *)
Lemma oinv_delete objs idx tasks L e o b b' : oinv objs idx tasks L -> nth_error objs o = Some b -> ob_gone b = None -> ef_st e = CDel (ob_key b) ->
  ob_key b' = ob_key b -> ob_val b' = ob_val b -> ob_gone b' = Some (ef_id e) -> ~ In (ef_id e) (map ef_id L) ->
  (forall i t, nth_error tasks i = Some t -> ct_inv t <= ef_at e) -> oinv (rep objs o b') (kset idx (ob_key b) None) tasks (L ++ [e]).
Proof.
  intros [OX OV OF OD OG OH] NO GO SE K' V' G' NI TI.
  assert (W : forall j x, nth_error (rep objs o b') j = Some x -> (j = o /\ x = b') \/ (j <> o /\ nth_error objs j = Some x)).
  { intros j x H. destruct (Nat.eq_dec j o) as [->|J]; [left; rewrite (rep_same _ _ _ _ b' NO) in H; injection H as <-; auto|right; rewrite (rep_other _ _ _ _ _ b' NO J) in H; auto]. }
  pose proof (OV o b NO GO) as IO.
  assert (OLD : forall j x d, nth_error objs j = Some x -> ob_gone x = Some d -> d <> ef_id e).
  { intros j x d N G ->. destruct (OD j x _ N G) as (A & z & B & E1 & E2 & _). apply NI. rewrite E1, <- E2. apply in_map, in_app_iff. right. left. reflexivity. }
  constructor.
  - intros k j X. destruct (key_dec k (ob_key b)) as [->|D]; [rewrite kset_same in X; discriminate X|]. rewrite kset_other in X by exact D.
    destruct (OX k j X) as (z & E & Q & R). exists z. rewrite (rep_other _ _ _ _ _ b' NO); [auto|]. intros ->. congruence.
  - intros j x N G. destruct (W j x N) as [[-> ->]|[J X]]; [congruence|]. pose proof (OV j x X G) as Y. rewrite kset_other; [exact Y|]. congruence.
  - intros k. rewrite final_app. cbn. rewrite SE. cbn. destruct (key_dec k (ob_key b)) as [->|D]; [now rewrite !kset_same|]. rewrite !kset_other by exact D.
    rewrite OF. destruct (idx k) as [j|] eqn:J; [|reflexivity]. rewrite (rep_other _ _ _ _ _ b' NO); [reflexivity|]. intros ->. destruct (OX k o J) as (z & E & Q & _). congruence.
  - intros j x d N G. destruct (W j x N) as [[-> ->]|[J X]].
    + rewrite G' in G. injection G as <-. exists L, e, []. split; [reflexivity|]. split; [reflexivity|]. rewrite K', V'. split; [exact SE|]. split; [rewrite OF, IO, NO; reflexivity|].
      intros i t Nt _. eapply TI; exact Nt.
    + destruct (OD j x d X G) as (A & z & B & -> & R). exists A, z, (B ++ [e]). rewrite <- app_assoc. split; [reflexivity|exact R].
  - intros j j' x x' d N N' Gx Gx'. destruct (W j x N) as [[-> ->]|[J X]], (W j' x' N') as [[-> ->]|[J' X']]; [reflexivity| | |exact (OG j j' x x' d X X' Gx Gx')].
    + exfalso. apply (OLD j' x' d X' Gx'). congruence.
    + exfalso. apply (OLD j x d X Gx). congruence.
  - intros i t j N H. destruct (OH i t j N H) as (z & E & Q). destruct (Nat.eq_dec j o) as [->|J].
    + rewrite NO in E. injection E as <-. exists b'. split; [eapply rep_same; exact NO|congruence].
    + exists z. rewrite (rep_other _ _ _ _ _ b' NO J). auto.
Qed.

(** a statement that held a row deleted meanwhile: its effect comes just before the deletion *)
Lemma two_splits A (x y : A) a : forall b c d, a ++ x :: b = c ++ y :: d ->
  (a = c /\ x = y /\ b = d) \/ (exists m, c = a ++ x :: m /\ b = m ++ y :: d) \/ (exists m, a = c ++ y :: m /\ d = m ++ x :: b).
Proof.
  induction a as [|z a IH]; intros b [|w c] d E; cbn in E; injection E as -> E.
  - left. auto.
  - right. left. exists c. auto.
  - right. right. exists a. auto.
  - destruct (IH _ _ _ E) as [(-> & -> & ->)|[(m & -> & ->)|(m & -> & ->)]]; [left; auto|right; left; exists m; auto|right; right; exists m; auto].
Qed.
Lemma final_late A e d B k : key_of (ef_st e) = Some k -> ef_st d = CDel k -> teq (final T0 (A ++ e :: d :: B)) (final T0 (A ++ d :: B)).
Proof. intros K D. rewrite !final_app. cbn [ConcSpec.final fold_left]. apply (final_ext B). rewrite D. apply before_delete. exact K. Qed.
Lemma turn_late A e d B k x : in_turn T0 (A ++ d :: B) -> key_of (ef_st e) = Some k -> ef_st d = CDel k -> final T0 A k = Some x ->
  (exists y, after (final T0 A) (ef_st e) k = Some y) -> ef_ans e = answer (final T0 A) (ef_st e) -> in_turn T0 (A ++ e :: d :: B).
Proof.
  intros T K D FA (y & FY) AE. apply turn_app in T. destruct T as [TA T]. cbn in T. destruct T as [TD TB]. apply turn_app. split; [exact TA|]. cbn. split; [exact AE|].
  rewrite D in *. cbn in TD. rewrite FA in TD. split; [cbn; rewrite FY; exact TD|]. eapply turn_ext; [|exact TB]. intros j. symmetry. apply before_delete. exact K.
Qed.
Lemma oinv_late objs idx tasks A d B o b e b' : oinv objs idx tasks (A ++ d :: B) -> NoDup (map ef_id (A ++ d :: B)) ->
  nth_error objs o = Some b -> ob_gone b = Some (ef_id d) -> ef_st d = CDel (ob_key b) -> key_of (ef_st e) = Some (ob_key b) ->
  (forall i t, nth_error tasks i = Some t -> holds t = Some o -> ct_inv t <= ef_at d) ->
  ob_key b' = ob_key b -> ob_gone b' = ob_gone b -> after (final T0 A) (ef_st e) (ob_key b) = Some (ob_val b') ->
  oinv (rep objs o b') idx tasks (A ++ e :: d :: B).
Proof.
  intros [OX OV OF OD OG OH] ND NO GO SD KE HI K' G' AF.
  assert (W : forall j x, nth_error (rep objs o b') j = Some x -> (j = o /\ x = b') \/ (j <> o /\ nth_error objs j = Some x)).
  { intros j x H. destruct (Nat.eq_dec j o) as [->|J]; [left; rewrite (rep_same _ _ _ _ b' NO) in H; injection H as <-; auto|right; rewrite (rep_other _ _ _ _ _ b' NO J) in H; auto]. }
  constructor.
  - intros k j X. destruct (OX k j X) as (z & E & Q & R). exists z. rewrite (rep_other _ _ _ _ _ b' NO); [auto|]. intros ->. congruence.
  - intros j x N G. destruct (W j x N) as [[-> ->]|[J X]]; [congruence|eapply OV; eassumption].
  - intros k. rewrite (final_late A e d B (ob_key b) KE SD). rewrite OF. destruct (idx k) as [j|] eqn:J; [|reflexivity]. rewrite (rep_other _ _ _ _ _ b' NO); [reflexivity|].
    intros ->. destruct (OX k o J) as (z & E & _ & Q). congruence.
  - intros j x g N G. destruct (W j x N) as [[-> ->]|[J X]].
    + exists (A ++ [e]), d, B. rewrite <- app_assoc. split; [reflexivity|]. split; [congruence|]. rewrite K'. split; [exact SD|]. split; [rewrite final_app; exact AF|exact HI].
    + destruct (OD j x g X G) as (A2 & z & B2 & E1 & E2 & E3 & E4 & E5). destruct (two_splits _ _ _ _ _ _ _ E1) as [(-> & -> & ->)|[(m & -> & ->)|(m & -> & ->)]].
      * exfalso. apply J. eapply (OG j o x b (ef_id z)); [exact X|exact NO|congruence|exact GO].
      * exists (A ++ e :: d :: m), z, B2. rewrite <- app_assoc. split; [reflexivity|]. split; [exact E2|]. split; [exact E3|]. split; [|exact E5].
        rewrite (final_late A e d m (ob_key b) KE SD). exact E4.
      * exists A2, z, (m ++ e :: d :: B). rewrite <- app_assoc. split; [reflexivity|]. auto.
  - intros j j' x x' g N N' Gx Gx'. destruct (W j x N) as [[-> ->]|[J X]], (W j' x' N') as [[-> ->]|[J' X']]; [reflexivity| | |exact (OG j j' x x' g X X' Gx Gx')].
    + apply (OG o j' b x' g NO X'); congruence.
    + apply (OG j o x b g X NO); congruence.
  - intros i t j N H. destruct (OH i t j N H) as (z & E & Q). destruct (Nat.eq_dec j o) as [->|J].
    + rewrite NO in E. injection E as <-. exists b'. split; [eapply rep_same; exact NO|congruence].
    + exists z. rewrite (rep_other _ _ _ _ _ b' NO J). auto.
Qed.

(** ** One step *)
Lemma hold_rep tasks i t pc idx : nth_error tasks i = Some t ->
  (forall o, holds (mk_ct (ct_st t) (ct_inv t) pc) = Some o -> holds t = Some o \/ exists k, key_of (ct_st t) = Some k /\ idx k = Some o) ->
  forall j x o, nth_error (rep tasks i (mk_ct (ct_st t) (ct_inv t) pc)) j = Some x -> holds x = Some o ->
     (exists t0, nth_error tasks j = Some t0 /\ holds t0 = Some o /\ ct_st x = ct_st t0 /\ ct_inv x = ct_inv t0) \/
     (exists k, key_of (ct_st x) = Some k /\ idx k = Some o).
Proof.
  intros N H j x o X Y. destruct (Nat.eq_dec j i) as [->|J].
  - rewrite (rep_same _ _ _ _ _ N) in X. injection X as <-. destruct (H o Y) as [E|E]; [left; exists t; auto|right; exact E].
  - rewrite (rep_other _ _ _ _ _ _ N J) in X. left. exists x. auto.
Qed.

Lemma linv_quiet c L i t objs' ver q op fi pc : linv c L -> nth_error (c_tasks c) i = Some t -> alike (c_objs c) objs' ->
  fits (mk_ct (ct_st t) (ct_inv t) pc) -> took (mk_ct (ct_st t) (ct_inv t) pc) = took t -> (forall a m, pc = PDone a m -> m = c_now c) ->
  (forall o, holds (mk_ct (ct_st t) (ct_inv t) pc) = Some o -> holds t = Some o \/ exists k, key_of (ct_st t) = Some k /\ c_idx c k = Some o) ->
  linv (mk_cst objs' (c_idx c) ver q op fi (rep (c_tasks c) i (mk_ct (ct_st t) (ct_inv t) pc)) (S (c_now c))) L.
Proof.
  intros (TU & TI & OI) N AL FI TK M HO. split; [exact TU|]. split; [apply tinv_quiet; assumption|]. cbn. eapply oinv_quiet; [exact OI|exact AL|]. apply hold_rep; assumption.
Qed.

(** an effect at the end of the order that leaves the rows *)
Lemma linv_read c L i t ver q op fi pc a : linv c L -> nth_error (c_tasks c) i = Some t ->
  fits (mk_ct (ct_st t) (ct_inv t) pc) -> took t = None -> took (mk_ct (ct_st t) (ct_inv t) pc) = Some a -> ct_st t <> CAll -> (forall a m, pc = PDone a m -> m = c_now c) ->
  holds (mk_ct (ct_st t) (ct_inv t) pc) = None -> a = answer (final T0 L) (ct_st t) -> teq (after (final T0 L) (ct_st t)) (final T0 L) ->
  linv (mk_cst (c_objs c) (c_idx c) ver q op fi (rep (c_tasks c) i (mk_ct (ct_st t) (ct_inv t) pc)) (S (c_now c))) (L ++ [mk_eff i (ct_st t) a (c_now c)]).
Proof.
  intros (TU & TI & OI) N FI TN TK NA M HO AN AF. split; [|split].
  - apply turn_app. split; [exact TU|]. cbn. split; [exact AN|exact Logic.I].
  - rewrite <- (app_nil_r L) in TI. pose proof (ti_inv _ _ _ TI i t N). apply (tinv_effect (c_tasks c) (c_now c) L []); auto. lia.
  - cbn. apply oinv_more; [|exact AF]. eapply oinv_quiet; [exact OI|apply alike_refl|]. apply hold_rep; [exact N|]. intros o E. congruence.
Qed.

Lemma holder_inv objs idx tasks L i t o b d : oinv objs idx tasks L -> nth_error tasks i = Some t -> holds t = Some o -> nth_error objs o = Some b -> ob_gone b = Some d ->
  exists A e B, L = A ++ e :: B /\ ef_id e = d /\ ef_st e = CDel (ob_key b) /\ final T0 A (ob_key b) = Some (ob_val b) /\ ct_inv t <= ef_at e /\
    forall j x, nth_error tasks j = Some x -> holds x = Some o -> ct_inv x <= ef_at e.
Proof. intros OI N H NO G. destruct (oi_dead _ _ _ _ OI o b d NO G) as (A & e & B & E1 & E2 & E3 & E4 & E5). exists A, e, B. repeat (split; [assumption|]). split; [eapply E5; eassumption|exact E5]. Qed.

(** the late effect *)
Lemma linv_late c L i t o b d b' ver q op fi pc a : linv c L -> nth_error (c_tasks c) i = Some t -> holds t = Some o -> nth_error (c_objs c) o = Some b -> ob_gone b = Some d ->
  fits (mk_ct (ct_st t) (ct_inv t) pc) -> took t = None -> took (mk_ct (ct_st t) (ct_inv t) pc) = Some a -> ct_st t <> CAll -> (forall a m, pc = PDone a m -> m = c_now c) ->
  (forall o', holds (mk_ct (ct_st t) (ct_inv t) pc) = Some o' -> o' = o) ->
  ob_key b' = ob_key b -> ob_gone b' = ob_gone b ->
  (forall T : tab V, T (ob_key b) = Some (ob_val b) -> answer T (ct_st t) = a /\ after T (ct_st t) (ob_key b) = Some (ob_val b')) ->
  exists L', linv (mk_cst (rep (c_objs c) o b') (c_idx c) ver q op fi (rep (c_tasks c) i (mk_ct (ct_st t) (ct_inv t) pc)) (S (c_now c))) L'.
Proof.
  intros (TU & TI & OI) N HT NO G FI TN TK NA M HO K' G' AN.
  destruct (oi_hold _ _ _ _ OI i t o N HT) as (b0 & NB & KT). rewrite NO in NB. injection NB as <-.
  destruct (holder_inv _ _ _ _ _ _ _ _ _ OI N HT NO G) as (A & e & B & -> & E2 & E3 & E4 & E5 & E6). destruct (AN _ E4) as [AN1 AN2].
  exists (A ++ mk_eff i (ct_st t) a (ef_at e) :: e :: B). split; [|split].
  - eapply turn_late; [exact TU|exact KT|exact E3|exact E4|eexists; exact AN2|symmetry; exact AN1].
  - apply (tinv_effect (c_tasks c) (c_now c) A (e :: B)); auto. destruct (ti_in _ _ _ TI e) as (_ & x & _ & _ & _ & W & _); [apply in_app_iff; right; left; reflexivity|]. lia.
  - cbn. assert (OQ : oinv (c_objs c) (c_idx c) (rep (c_tasks c) i (mk_ct (ct_st t) (ct_inv t) pc)) (A ++ e :: B)).
    { eapply oinv_quiet; [exact OI|apply alike_refl|]. apply hold_rep; [exact N|]. intros o' X. left. rewrite (HO o' X). exact HT. }
    eapply oinv_late; try eassumption; [exact (ti_nd _ _ _ TI)|rewrite E2; exact G|].
    intros j x NX HX. destruct (Nat.eq_dec j i) as [->|J].
    + rewrite (rep_same _ _ _ _ _ N) in NX. injection NX as <-. exact E5.
    + rewrite (rep_other _ _ _ _ _ _ N J) in NX. eapply E6; eassumption.
Qed.

Lemma final_at c L o b : linv c L -> nth_error (c_objs c) o = Some b -> ob_gone b = None -> final T0 L (ob_key b) = Some (ob_val b).
Proof. intros (_ & _ & OI) N G. rewrite (oi_fin _ _ _ _ OI), (oi_live _ _ _ _ OI o b N G), N. reflexivity. Qed.
Lemma final_none c L k : linv c L -> c_idx c k = None -> final T0 L k = None.
Proof. intros (_ & _ & OI) E. now rewrite (oi_fin _ _ _ _ OI), E. Qed.

(** an UPDATE changes the row, in the index or not *)
Lemma linv_update c L i t o b k f b' ver q op fi pc a : linv c L -> nth_error (c_tasks c) i = Some t -> holds t = Some o -> nth_error (c_objs c) o = Some b -> ct_st t = CUpd k f ->
  fits (mk_ct (ct_st t) (ct_inv t) pc) -> took t = None -> took (mk_ct (ct_st t) (ct_inv t) pc) = Some a -> (forall a m, pc = PDone a m -> m = c_now c) ->
  (forall o', holds (mk_ct (ct_st t) (ct_inv t) pc) = Some o' -> o' = o) ->
  ob_key b' = ob_key b -> ob_gone b' = ob_gone b -> ob_val b' = fst (app f (ob_val b)) -> a = (if snd (app f (ob_val b)) then CAok else CArefused) ->
  exists L', linv (mk_cst (rep (c_objs c) o b') (c_idx c) ver q op fi (rep (c_tasks c) i (mk_ct (ct_st t) (ct_inv t) pc)) (S (c_now c))) L'.
Proof.
  intros LI N HT NO SE FI TN TK M HO K' G' V' AN. pose proof LI as (TU & TI & OI).
  destruct (oi_hold _ _ _ _ OI i t o N HT) as (b0 & NB & KT). rewrite NO in NB. injection NB as <-. rewrite SE in KT. cbn in KT. injection KT as ->.
  assert (NA : ct_st t <> CAll) by (rewrite SE; intros D; discriminate D).
  destruct (ob_gone b) as [d|] eqn:G.
  - eapply linv_late; try eassumption; [congruence|]. intros T E. rewrite SE. cbn. rewrite E. cbn. rewrite kset_same. split; congruence.
  - pose proof (final_at _ _ _ _ LI NO G) as FA. exists (L ++ [mk_eff i (ct_st t) a (c_now c)]). split; [|split].
    + apply turn_app. split; [exact TU|]. cbn. split; [|exact Logic.I]. rewrite SE. cbn. rewrite FA. exact AN.
    + rewrite <- (app_nil_r L) in TI. pose proof (ti_inv _ _ _ TI i t N). apply (tinv_effect (c_tasks c) (c_now c) L []); auto. lia.
    + cbn. eapply (oinv_update _ _ _ _ _ o b f (ob_val b')); [|exact NO|exact G|exact SE|symmetry; exact V'|exact K'|reflexivity|exact G'].
      eapply oinv_quiet; [exact OI|apply alike_refl|]. apply hold_rep; [exact N|]. intros o' X. left. rewrite (HO o' X). exact HT.
Qed.

Lemma step_task_linv c L i t c' : linv c L -> nth_error (c_tasks c) i = Some t -> step_task app ord c i t = Some c' -> exists L', linv c' L'.
Proof.
  intros LI N ST. pose proof LI as (TU & TI & OI). unfold step_task in ST.
  pose proof (ti_fits _ _ _ TI i t N) as FT.
  assert (DONE : forall a m a' m', PDone (V := V) a m = PDone a' m' -> m' = m) by (intros ? ? ? ? E; injection E as _ ->; reflexivity).
  destruct (ct_st t) as [k x|k f|k|k|] eqn:SE; destruct (ct_pc t) eqn:PE; unfold fits in FT; rewrite SE, PE in FT; try contradiction; try discriminate ST.
  - (* INSERT begins *) destruct (scanning c); [discriminate ST|]. injection ST as <-. exists L. unfold go, numbered. cbn. eapply linv_quiet; try eassumption; [apply alike_refl| | | |]; try rewrite SE; cbn; auto.
    all: unfold took, holds; rewrite ?PE; cbn; try reflexivity; try (intros; discriminate).
  - (* INSERT puts the row *) destruct (c_idx c k) as [o|] eqn:IK; injection ST as <-.
    + exists (L ++ [mk_eff i (ct_st t) CAdup (c_now c)]). unfold go. destruct (oi_idx _ _ _ _ OI k o IK) as (b & NB & KB & GB). pose proof (final_at _ _ _ _ LI NB GB) as FA. rewrite KB in FA.
      eapply linv_read; try eassumption; rewrite ?SE; cbn; auto; try (intros D; discriminate D).
      * unfold took. now rewrite PE.
      * apply DONE.
      * now rewrite FA.
      * intros j. now rewrite FA.
    + pose proof (final_none _ _ _ LI IK) as FN. exists (L ++ [mk_eff i (ct_st t) CAok (c_now c)]). split; [|split].
      * apply turn_app. split; [exact TU|]. cbn. split; [|exact Logic.I]. rewrite SE. cbn. now rewrite FN.
      * rewrite <- (app_nil_r L) in TI. pose proof (ti_inv _ _ _ TI i t N). apply (tinv_effect (c_tasks c) (c_now c) L []); rewrite ?SE; cbn; auto; try (intros; discriminate); try lia. unfold took. now rewrite PE.
      * cbn. eapply oinv_insert; [|exact IK|cbn; exact SE]. eapply oinv_quiet; [exact OI|apply alike_refl|]. apply hold_rep; [exact N|]. intros o' X. discriminate X.
  - (* INSERT is answered *) injection ST as <-. exists L. unfold go, queued. cbn. eapply linv_quiet; try eassumption; [apply alike_refl| | | |]; rewrite ?SE; cbn; auto.
    + unfold took. rewrite ?PE. reflexivity.
    + apply DONE.
    + intros o' X. discriminate X.
  - (* UPDATE begins *) destruct (c_idx c k) as [o|] eqn:IK; injection ST as <-.
    + exists L. unfold go. eapply linv_quiet; try eassumption; [apply alike_refl| | | |]; rewrite ?SE; cbn; auto.
      * unfold took. rewrite ?PE. reflexivity.
      * intros; discriminate.
      * intros o' X. injection X as <-. right. exists k. auto.
    + pose proof (final_none _ _ _ LI IK) as FN. exists (L ++ [mk_eff i (ct_st t) CAnone (c_now c)]). unfold go.
      eapply linv_read; try eassumption; rewrite ?SE; cbn; auto; try (intros D; discriminate D).
      * unfold took. now rewrite PE.
      * apply DONE.
      * now rewrite FN.
      * intros j. now rewrite FN.
  - (* UPDATE locks *) destruct (nth_error (c_objs c) o) as [b|] eqn:NO; [|discriminate ST]. destruct (ob_lock b); [discriminate ST|]. injection ST as <-. exists L. unfold go, with_objs. cbn.
    eapply linv_quiet; try eassumption; [apply (alike_rep _ _ _ _ NO); reflexivity| | | |]; rewrite ?SE; cbn; auto.
    + unfold took. rewrite ?PE. reflexivity.
    + intros; discriminate.
    + intros o' X. left. unfold holds in *. rewrite PE. exact X.
  - (* UPDATE takes a number *) injection ST as <-. exists L. unfold go, numbered. cbn. eapply linv_quiet; try eassumption; [apply alike_refl| | | |]; rewrite ?SE; cbn; auto.
    + unfold took. rewrite ?PE. reflexivity.
    + intros; discriminate.
    + intros o' X. left. unfold holds in *. rewrite PE. exact X.
  - (* UPDATE changes the row *) destruct (nth_error (c_objs c) o) as [b|] eqn:NO; [|discriminate ST]. destruct (app f (ob_val b)) as [y ok] eqn:AP.
    destruct ok; injection ST as <-; unfold go, with_objs; cbn; eapply linv_update; try eassumption; rewrite ?SE, ?AP; cbn; auto; try (unfold took; rewrite ?PE; cbn; reflexivity); try (unfold holds; rewrite PE; reflexivity).
    + intros; discriminate.
    + intros o' X. injection X as <-. reflexivity.
    + apply DONE.
    + intros o' X. discriminate X.
  - (* UPDATE is answered *) destruct (nth_error (c_objs c) o) as [b|] eqn:NO; [|discriminate ST]. injection ST as <-. exists L. unfold go, with_objs, queued. cbn.
    eapply linv_quiet; try eassumption; [apply (alike_rep _ _ _ _ NO); reflexivity| | | |]; rewrite ?SE; cbn; auto.
    + unfold took. rewrite ?PE. reflexivity.
    + apply DONE.
    + intros o' X. discriminate X.
  - (* DELETE begins *) destruct (scanning c); [discriminate ST|]. injection ST as <-. exists L. unfold go, numbered. cbn. eapply linv_quiet; try eassumption; [apply alike_refl| | | |]; rewrite ?SE; cbn; auto.
    + unfold took. rewrite ?PE. reflexivity.
    + intros; discriminate.
    + intros o' X. discriminate X.
  - (* DELETE takes the row out *) destruct (c_idx c k) as [o|] eqn:IK.
    + destruct (oi_idx _ _ _ _ OI k o IK) as (b & NB & KB & GB). rewrite NB in ST. injection ST as <-. pose proof (final_at _ _ _ _ LI NB GB) as FA. rewrite KB in FA.
      exists (L ++ [mk_eff i (ct_st t) CAok (c_now c)]). split; [|split].
      * apply turn_app. split; [exact TU|]. cbn. split; [|exact Logic.I]. rewrite SE. cbn. now rewrite FA.
      * rewrite <- (app_nil_r L) in TI. pose proof (ti_inv _ _ _ TI i t N). apply (tinv_effect (c_tasks c) (c_now c) L []); rewrite ?SE; cbn; auto; try (intros; discriminate); try lia. unfold took. now rewrite PE.
      * cbn. rewrite <- KB. eapply oinv_delete; [|exact NB|exact GB|cbn; rewrite SE, KB; reflexivity|cbn; reflexivity|cbn; reflexivity|cbn; reflexivity| |].
        -- eapply oinv_quiet; [exact OI|apply alike_refl|]. apply hold_rep; [exact N|]. intros o' X. discriminate X.
        -- cbn. intros I. apply in_map_iff in I. destruct I as (e & Q & I). destruct (ti_in _ _ _ TI e I) as (_ & x & X1 & _ & X3 & _). rewrite Q, N in X1. injection X1 as <-. unfold took in X3. rewrite PE in X3. discriminate X3.
        -- intros j x X. cbn. destruct (Nat.eq_dec j i) as [->|J].
           ++ rewrite (rep_same _ _ _ _ _ N) in X. injection X as <-. cbn. pose proof (ti_inv _ _ _ TI i t N). lia.
           ++ rewrite (rep_other _ _ _ _ _ _ N J) in X. pose proof (ti_inv _ _ _ TI j x X). lia.
    + injection ST as <-. pose proof (final_none _ _ _ LI IK) as FN. exists (L ++ [mk_eff i (ct_st t) CAnone (c_now c)]). unfold go.
      eapply linv_read; try eassumption; rewrite ?SE; cbn; auto; try (intros D; discriminate D).
      * unfold took. now rewrite PE.
      * apply DONE.
      * now rewrite FN.
      * intros j. destruct (key_dec j k) as [->|D]; [rewrite kset_same; congruence|now rewrite kset_other].
  - (* DELETE is answered *) injection ST as <-. exists L. unfold go, queued. cbn. eapply linv_quiet; try eassumption; [apply alike_refl| | | |]; rewrite ?SE; cbn; auto.
    + unfold took. rewrite ?PE. reflexivity.
    + apply DONE.
    + intros o' X. discriminate X.
  - (* SELECT begins *) destruct (c_idx c k) as [o|] eqn:IK; injection ST as <-.
    + exists L. unfold go. eapply linv_quiet; try eassumption; [apply alike_refl| | | |]; rewrite ?SE; cbn; auto.
      * unfold took. rewrite ?PE. reflexivity.
      * intros; discriminate.
      * intros o' X. injection X as <-. right. exists k. auto.
    + pose proof (final_none _ _ _ LI IK) as FN. exists (L ++ [mk_eff i (ct_st t) CAnone (c_now c)]). unfold go.
      eapply linv_read; try eassumption; rewrite ?SE; cbn; auto; try (intros D; discriminate D).
      * unfold took. now rewrite PE.
      * apply DONE.
      * now rewrite FN.
      * intros j. reflexivity.
  - (* SELECT reads *) destruct (nth_error (c_objs c) o) as [b|] eqn:NO; [|discriminate ST]. destruct (ob_lock b); [discriminate ST|]. injection ST as <-.
    assert (HT : holds t = Some o) by (unfold holds; rewrite PE; reflexivity).
    destruct (oi_hold _ _ _ _ OI i t o N HT) as (b0 & NB & KT). rewrite NO in NB. injection NB as <-. rewrite SE in KT. cbn in KT. injection KT as ->.
    destruct (ob_gone b) as [d|] eqn:G.
    + destruct (linv_late c L i t o b d b (c_ver c) (c_queue c) (c_open c) (c_file c) (PDone (CArow (ob_val b)) (c_now c)) (CArow (ob_val b))) as (L' & E); try assumption; rewrite ?SE; cbn; auto; try (intros; discriminate).
      * unfold took. now rewrite PE.
      * apply DONE.
      * intros T E. rewrite E. auto.
      * exists L'. unfold go. replace (rep (c_objs c) o b) with (c_objs c) in E; [exact E|]. destruct (rep_split _ _ _ _ b NO) as (x1 & x2 & X1 & _ & X2). congruence.
    + pose proof (final_at _ _ _ _ LI NO G) as FA. exists (L ++ [mk_eff i (ct_st t) (CArow (ob_val b)) (c_now c)]). unfold go.
      eapply linv_read; try eassumption; rewrite ?SE; cbn; auto; try (intros D; discriminate D).
      * unfold took. now rewrite PE.
      * apply DONE.
      * now rewrite FA.
      * intros j. reflexivity.
  - (* SELECT ALL *) destruct (latched c); [discriminate ST|]. injection ST as <-. exists L. unfold go. eapply linv_quiet; try eassumption; [apply alike_refl| | | |]; rewrite ?SE; cbn; auto.
    + unfold took. rewrite ?PE. reflexivity.
    + intros; discriminate.
    + intros o' X. discriminate X.
  - destruct rest as [|o rest]; [|destruct (nth_error (c_objs c) o) as [b|]; [|discriminate ST]; destruct (ob_lock b); [discriminate ST|]]; injection ST as <-; exists L; unfold go;
      (eapply linv_quiet; try eassumption; [apply alike_refl| | | |]; rewrite ?SE; cbn; auto).
    + unfold took. rewrite ?PE, ?SE. reflexivity.
    + apply DONE.
    + intros o' X. discriminate X.
    + unfold took. rewrite ?PE. reflexivity.
    + intros; discriminate.
    + intros o' X. discriminate X.
Qed.

Lemma cstep_linv c L l c' : linv c L -> cstep app ord c l = Some c' -> exists L', linv c' L'.
Proof.
  intros LI ST. destruct l as [s|i| |]; cbn in ST.
  - injection ST as <-. exists L. destruct LI as (TU & TI & OI). split; [exact TU|]. split; cbn.
    + destruct TI as [SO ND IN AL IV FT]. constructor; auto.
      * intros e I. destruct (IN e I) as (P & x & X1 & X2 & X3 & X4 & X5). split; [exact P|]. exists x. split; [rewrite nth_error_app1; [exact X1|apply nth_error_Some; congruence]|]. split; [exact X2|]. split; [exact X3|]. split; [lia|exact X5].
      * intros i t a N T. apply nth_snoc in N. destruct N as [N|[_ ->]]; [eapply AL; eassumption|discriminate T].
      * intros i t N. apply nth_snoc in N. destruct N as [N|[_ ->]]; [pose proof (IV i t N); lia|cbn; lia].
      * intros i t N. apply nth_snoc in N. destruct N as [N|[_ ->]]; [eapply FT; eassumption|]. unfold fits. cbn. now destruct s.
    + eapply oinv_quiet; [exact OI|apply alike_refl|]. intros i t o N H. apply nth_snoc in N. destruct N as [N|[_ ->]]; [left; exists t; auto|discriminate H].
  - destruct (nth_error (c_tasks c) i) as [t|] eqn:N; [|discriminate ST]. eapply step_task_linv; eassumption.
  - destruct (c_queue c) as [|d q]; [discriminate ST|]. destruct (blocked (c_objs c) d); [discriminate ST|]. injection ST as <-. exists L. destruct LI as (TU & TI & OI). split; [exact TU|]. split; [|exact OI]. cbn.
    destruct TI as [SO ND IN AL IV FT]. constructor; auto.
    + intros e I. destruct (IN e I) as (P & x & X1 & X2 & X3 & X4 & X5). split; [exact P|]. exists x. repeat (split; [assumption|]). split; [lia|exact X5].
    + intros i t N. pose proof (IV i t N). lia.
  - injection ST as <-. exists L. destruct LI as (TU & TI & OI). split; [exact TU|]. split; [|exact OI]. cbn.
    destruct TI as [SO ND IN AL IV FT]. constructor; auto.
    + intros e I. destruct (IN e I) as (P & x & X1 & X2 & X3 & X4 & X5). split; [exact P|]. exists x. repeat (split; [assumption|]). split; [lia|exact X5].
    + intros i t N. pose proof (IV i t N). lia.
Qed.
Lemma crun_linv ls : forall c L c', linv c L -> crun app ord c ls = Some c' -> exists L', linv c' L'.
Proof.
  induction ls as [|l ls IH]; cbn; intros c L c' LI R; [injection R as <-; eauto|].
  destruct (cstep app ord c l) as [c1|] eqn:E; [|discriminate R]. destruct (cstep_linv _ _ _ _ LI E) as (L1 & LI1). eapply IH; eassumption.
Qed.
Lemma linv0 : linv cst0 [].
Proof.
  split; [exact Logic.I|]. split; cbn; constructor; cbn; auto; try constructor; try (intros; contradiction); try (intros; discriminate).
  all: try (intros [|?]; intros; discriminate).
Qed.
Lemma explained ls c : crun app ord cst0 ls = Some c -> exists L, explains app c L.
Proof. intros R. destruct (crun_linv _ _ _ _ linv0 R) as (L & LI). exists L. apply linv_explains. exact LI. Qed.
End P.
