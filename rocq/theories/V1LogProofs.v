(** Reading the system log of the old format. *)
From Coq Require Import List Arith NArith Bool Lia.
From Verif Require Import Bytes DataModel CodecModel GnsCodecModel GnsModel V1Model V1Spec.
Import ListNotations.
Local Open Scope N_scope.

Lemma skipn_twice {A} (a b : nat) (l : list A) : skipn a (skipn b l) = skipn (b + a) l.
Proof. revert l. induction b as [|b IH]; intros l; [reflexivity|]. destruct l as [|x l]; [destruct a; reflexivity|]. apply IH. Qed.

Definition jm_ok (m : jmeta) : Prop :=
  jm_id m < two128 /\ jm_src m < two64 /\ jm_crc m < 2 ^ 32 /\ jm_len m < two64.

Lemma enc_jm_length m : length (enc_jm m) = 36%nat.
Proof. unfold enc_jm. rewrite !app_length, u128_len, !u64_len, le_enc_length. reflexivity. Qed.

Lemma dec_enc_jm m : jm_ok m -> dec_jm (enc_jm m) = m.
Proof.
  intros (A & B & C & D). unfold dec_jm, enc_jm. destruct m as [i s c n]; cbn [jm_id jm_src jm_crc jm_len] in *.
  assert (F : forall (a b : bytes) k, length a = k -> firstn k (a ++ b) = a).
  { intros a b k <-. rewrite firstn_app, Nat.sub_diag, firstn_O, app_nil_r. apply firstn_all. }
  assert (S : forall (a b : bytes) k j, length a = k -> skipn (k + j) (a ++ b) = skipn j b).
  { intros a b k j <-. rewrite skipn_app, (skipn_all2 a) by lia. cbn [app]. f_equal. lia. }
  set (a := u128_le i). set (b := u64_le s). set (d := le_enc 4 c). set (e := u64_le n).
  assert (La : length a = 16%nat) by apply u128_len. assert (Lb : length b = 8%nat) by apply u64_len.
  assert (Ld : length d = 4%nat) by apply le_enc_length. assert (Le : length e = 8%nat) by apply u64_len.
  pose proof (S a (b ++ d ++ e) 16%nat 0%nat La) as S1. pose proof (S a (b ++ d ++ e) 16%nat 8%nat La) as S2.
  pose proof (S a (b ++ d ++ e) 16%nat 12%nat La) as S3. pose proof (S b (d ++ e) 8%nat 0%nat Lb) as S4.
  pose proof (S b (d ++ e) 8%nat 4%nat Lb) as S5. pose proof (S d e 4%nat 0%nat Ld) as S6.
  cbn [plus] in *. rewrite (F a _ 16%nat La), S1, S2, S3. rewrite S4, S5, S6, (skipn_O (b ++ _)), (skipn_O (d ++ _)), skipn_O.
  rewrite (F b _ 8%nat Lb), (F d _ 4%nat Ld). unfold a, b, d, e.
  rewrite firstn_all2 by (rewrite u64_len; lia).
  rewrite u128_dec, !u64_dec, le_dec_enc by assumption. reflexivity.
Qed.

Lemma mark_ok id s : id < two64 -> s < two64 -> jm_ok (mk_jm id s 0 0).
Proof. intros A B. unfold jm_ok; cbn. unfold two64, two128 in *. lia. Qed.

Section Log.
Variable crc32 : bytes -> N.
Variable cap : nat.
Hypothesis cap_pos : (0 < cap)%nat.
Variable G : Type.
Variable upd : bytes -> G -> vupd G.
Variable file : bytes.

Notation v1r := (v1r G).
Notation stream := (v_stream G file).
Notation v_read := (v_read cap G file).
Notation v_next := (v_next crc32 cap G upd file).
Notation v_loop := (v_loop crc32 cap G upd file).
Notation v_recover := (v_recover cap G file).

(** the position is inside the file, and not before what is buffered *)
Definition rok0 (r : v1r) : Prop := (r_in r <= length file)%nat /\ (length (r_buf r) <= r_in r)%nat.
(** number of bytes read *)
Definition pos (r : v1r) : nat := (r_in r - length (r_buf r))%nat.
(** reads go on where they left off *)
Definition rok (r : v1r) : Prop := rok0 r /\ stream r = skipn (pos r) file.
(** nothing but the position differs *)
Definition same (r r' : v1r) : Prop := r_id r' = r_id r /\ r_closed r' = r_closed r /\ r_g r' = r_g r.

Lemma v_read_spec0 n r : rok0 r ->
  match v_read n r with
  | None => (length (stream r) < n)%nat
  | Some (b, r') => stream r = b ++ stream r' /\ length b = n /\ rok0 r' /\ same r r' /\ pos r' = (pos r + n)%nat
  end.
Proof.
  intros [K KB]. unfold rok0, pos in *. unfold V1Model.v_read, v_stream. destruct r as [bf p i c g]; cbn [r_buf r_in r_id r_closed r_g] in *.
  destruct (n <=? length bf)%nat eqn:E.
  - apply Nat.leb_le in E. cbn [r_buf r_in]. rewrite skipn_length.
    repeat split; [| | assumption | lia | lia].
    + rewrite app_assoc, firstn_skipn. reflexivity.
    + rewrite firstn_length. lia.
  - apply Nat.leb_gt in E. remember (skipn p file) as rest eqn:R.
    assert (RL : length rest = (length file - p)%nat) by (subst rest; apply skipn_length).
    destruct (length rest <? n - length bf)%nat eqn:E1.
    + apply Nat.ltb_lt in E1. rewrite app_length. lia.
    + apply Nat.ltb_ge in E1. destruct (cap <=? n - length bf)%nat eqn:E2; cbn [r_buf r_in]; unfold same; cbn [r_id r_closed r_g length].
      * repeat split; [| | lia | lia | lia].
        -- rewrite <- app_assoc. f_equal. cbn [app]. subst rest. rewrite <- (firstn_skipn (n - length bf) (skipn p file)) at 1.
           f_equal. rewrite skipn_twice. reflexivity.
        -- rewrite app_length, firstn_length. lia.
      * apply Nat.leb_gt in E2.
        assert (CL : length (firstn cap rest) = Nat.min cap (length rest)) by apply firstn_length.
        rewrite skipn_length. repeat split; [| | lia | lia | lia].
        -- rewrite <- app_assoc. f_equal. rewrite app_assoc, firstn_skipn.
           rewrite CL. subst rest.
           replace (skipn (p + Nat.min cap (length (skipn p file))) file) with (skipn cap (skipn p file)).
           ++ rewrite firstn_skipn. reflexivity.
           ++ rewrite skipn_twice. destruct (Nat.le_ge_cases cap (length (skipn p file))) as [L | L].
              ** f_equal. lia.
              ** rewrite !skipn_all2; [reflexivity | lia | lia].
        -- rewrite app_length, firstn_length. lia.
Qed.

Lemma v_read_spec n r : rok r ->
  match v_read n r with
  | None => (length (stream r) < n)%nat
  | Some (b, r') => stream r = b ++ stream r' /\ length b = n /\ rok r' /\ same r r'
  end.
Proof.
  intros [K0 K]. pose proof (v_read_spec0 n r K0) as H. destruct (v_read n r) as [[b r'] |]; [|assumption].
  destruct H as (H1 & H2 & H3 & H4 & H5). repeat split; try assumption; try apply H3; try apply H4.
  rewrite H5, <- skipn_twice, <- K, H1, skipn_app, (skipn_all2 b) by lia. rewrite H2, Nat.sub_diag. reflexivity.
Qed.

Lemma v_read_app n r b rest : rok r -> stream r = b ++ rest -> length b = n ->
  exists r', v_read n r = Some (b, r') /\ stream r' = rest /\ rok r' /\ same r r'.
Proof.
  intros K E L. pose proof (v_read_spec n r K) as H. destruct (v_read n r) as [[b' r'] |].
  - destruct H as (H1 & H2 & H3 & H4). rewrite E in H1.
    apply app_inj_len in H1 as [-> ->]; [|lia]. exists r'. auto.
  - rewrite E, app_length in H. lia.
Qed.

Lemma v_read_short n r : rok r -> (length (stream r) < n)%nat -> v_read n r = None.
Proof.
  intros K L. pose proof (v_read_spec n r K) as H. destruct (v_read n r) as [[b' r'] |]; [|reflexivity].
  destruct H as (H1 & H2 & _). rewrite H1, app_length in L. lia.
Qed.

Lemma v_recover_mark r rest : rok r -> r_id r < two64 -> stream r = v_mark (r_id r) SRC_RECOVERY ++ rest ->
  exists r', v_recover r = VrOk r' /\ stream r' = rest /\ rok r' /\ r_id r' = r_id r + 1 /\
             r_closed r' = r_closed r /\ r_g r' = r_g r.
Proof.
  intros K I E. destruct (v_read_app 36 r _ _ K E (enc_jm_length _)) as (r1 & E1 & S1 & K1 & (Q1 & Q2 & Q3)).
  unfold V1Model.v_recover. rewrite E1. unfold v_mark. rewrite dec_enc_jm by (apply mark_ok; [assumption | reflexivity]).
  cbn [jm_id jm_crc jm_len jm_src]. rewrite N.eqb_refl. cbn [N.eqb andb].
  exists (v_incr G r1). unfold v_stream, rok, rok0, pos, v_stream in *. cbn [v_incr r_buf r_in r_id r_closed r_g]. rewrite Q1. auto 7.
Qed.

(** what one operation of the log does to the reader's state *)
Definition lop_run (o : lop) (g : G) : vupd G := match o with LEvent p => upd p g | _ => VuOk g end.

Lemma v_next_lop o r rest g' : rok r -> r_id r < two64 -> r_closed r = false -> lop_ok crc32 o ->
  stream r = lop_bytes crc32 (r_id r) o ++ rest -> lop_run o (r_g r) = VuOk g' ->
  exists r', v_next r = VrOk r' /\ stream r' = rest /\ rok r' /\ r_id r' = r_id r + 1 /\ r_closed r' = false /\ r_g r' = g'.
Proof.
  intros K I C W E U. unfold V1Model.v_next.
  assert (I' : r_id r mod two64 = r_id r) by (apply N.mod_small; assumption).
  destruct o as [p | c p |]; cbn [lop_bytes lop_ok lop_run] in *.
  - destruct W as [W1 W2]. unfold l_record in E. rewrite <- app_assoc in E.
    destruct (v_read_app 36 r _ _ K E (enc_jm_length _)) as (r1 & E1 & S1 & K1 & (Q1 & Q2 & Q3)).
    rewrite E1, dec_enc_jm by (unfold jm_ok; cbn; unfold two64, two128 in *; repeat split; try assumption; lia).
    cbn [jm_id jm_src jm_len jm_crc]. rewrite I', N.eqb_refl. cbn [negb]. change (SRC_SERVER =? SRC_SERVER) with true. cbn match.
    rewrite S1, len_app. destruct (len p + len rest <? len p) eqn:LL; [apply N.ltb_lt in LL; lia|].
    destruct (v_read_app (N.to_nat (len p)) r1 _ _ K1 S1 (eq_sym (Nat2N.id _))) as (r2 & E2 & S2 & K2 & (P1 & P2 & P3)).
    rewrite E2, N.eqb_refl. cbn [negb]. rewrite P3, Q3, U.
    eexists; split; [reflexivity|]. unfold v_stream, rok, rok0, pos, v_stream in *. cbn [v_incr v_setg r_buf r_in r_id r_closed r_g].
    rewrite P1, Q1, P2, Q2. auto 7.
  - destruct W as (W1 & W2 & W3). unfold l_record in E. rewrite <- !app_assoc in E.
    destruct (v_read_app 36 r _ _ K E (enc_jm_length _)) as (r1 & E1 & S1 & K1 & (Q1 & Q2 & Q3)).
    rewrite E1, dec_enc_jm by (unfold jm_ok; cbn; unfold two64, two128 in *; repeat split; try assumption; lia).
    cbn [jm_id jm_src jm_len jm_crc]. rewrite I', N.eqb_refl. cbn [negb]. change (SRC_SERVER =? SRC_SERVER) with true. cbn match.
    rewrite S1, !len_app.
    match goal with |- context [?a <? ?b] => destruct (a <? b) eqn:LL end; [apply N.ltb_lt in LL; lia|].
    destruct (v_read_app (N.to_nat (len p)) r1 _ _ K1 S1 (eq_sym (Nat2N.id _))) as (r2 & E2 & S2 & K2 & (P1 & P2 & P3)).
    rewrite E2. apply N.eqb_neq in W3. rewrite W3. cbn [negb].
    assert (PI : r_id r2 = r_id r) by congruence.
    rewrite <- PI in S2. destruct (v_recover_mark r2 rest K2) as (r3 & E3 & S3 & K3 & R1 & R2 & R3); [rewrite PI; assumption | exact S2|].
    exists r3. rewrite E3. inversion U. refine (conj eq_refl (conj S3 (conj K3 (conj _ (conj _ _))))); congruence.
  - rewrite <- app_assoc in E.
    destruct (v_read_app 36 r _ _ K E (enc_jm_length _)) as (r1 & E1 & S1 & K1 & (Q1 & Q2 & Q3)).
    unfold v_mark. rewrite E1. unfold v_mark. rewrite dec_enc_jm by (apply mark_ok; [assumption | reflexivity]).
    cbn [jm_id jm_src jm_len jm_crc]. rewrite I', N.eqb_refl. cbn [negb].
    change (SRC_CLOSED =? SRC_SERVER) with false. change (SRC_CLOSED =? SRC_CLOSED) with true. cbn match.
    destruct (v_read_app 36 r1 _ _ K1 S1 (enc_jm_length _)) as (r2 & E2 & S2 & K2 & (P1 & P2 & P3)).
    assert (NE : exists b l, stream r1 = b :: l).
    { rewrite S1. unfold v_mark. destruct (enc_jm (mk_jm (r_id r) SRC_REOPENED 0 0)) as [|b l] eqn:EE.
      - apply (f_equal (@length _)) in EE. rewrite enc_jm_length in EE. discriminate EE.
      - exists b, (l ++ rest). reflexivity. }
    destruct NE as (b & l & NE). rewrite NE. unfold v_reopen. rewrite E2. unfold v_mark.
    rewrite dec_enc_jm by (apply mark_ok; [assumption | reflexivity]).
    cbn [jm_id jm_src jm_len jm_crc]. rewrite I', Q1, N.eqb_refl. change (SRC_REOPENED =? SRC_REOPENED) with true.
    cbn [N.eqb andb]. inversion U. eexists; split; [reflexivity|].
    unfold v_stream, rok, rok0, pos, v_stream in *. cbn [v_incr r_buf r_in r_id r_closed r_g]. rewrite P1, Q1, P2, Q2, P3, Q3. auto 7.
Qed.

Lemma v_next_close r : rok r -> r_id r < two64 -> stream r = v_mark (r_id r) SRC_CLOSED ->
  exists r', v_next r = VrOk r' /\ stream r' = [] /\ r_id r' = r_id r /\ r_closed r' = true /\ r_g r' = r_g r.
Proof.
  intros K I E. unfold V1Model.v_next. rewrite <- (app_nil_r (v_mark _ _)) in E.
  destruct (v_read_app 36 r _ _ K E (enc_jm_length _)) as (r1 & E1 & S1 & K1 & (Q1 & Q2 & Q3)).
  rewrite E1. unfold v_mark. rewrite dec_enc_jm by (apply mark_ok; [assumption | reflexivity]).
  cbn [jm_id jm_src jm_len jm_crc]. rewrite (N.mod_small _ _ I), N.eqb_refl. cbn [negb].
  change (SRC_CLOSED =? SRC_SERVER) with false. change (SRC_CLOSED =? SRC_CLOSED) with true. cbn match.
  rewrite S1. eexists; split; [reflexivity|]. unfold v_stream in *. cbn [r_buf r_in r_id r_closed r_g]. auto.
Qed.

(** the state after the operations *)
Fixpoint lops_run (l : list lop) (g : G) : option G :=
  match l with
  | [] => Some g
  | o :: l' => match lop_run o g with VuOk g' => lops_run l' g' | _ => None end
  end.

Lemma stream_cons r l : l <> [] -> stream r = l -> exists b l', stream r = b :: l'.
Proof. intros N E. destruct l as [|b l']; [congruence|]. exists b, l'. exact E. Qed.

Lemma jm_not_nil m : enc_jm m <> [].
Proof. intros E. apply (f_equal (@length _)) in E. rewrite enc_jm_length in E. discriminate E. Qed.

Lemma lop_not_nil id o : lop_bytes crc32 id o <> [].
Proof.
  intros E. destruct o; cbn [lop_bytes] in E; unfold l_record in E; rewrite <- ?app_assoc in E;
    apply app_eq_nil in E as [E _]; exact (jm_not_nil _ E).
Qed.

Lemma lop_len id o : (36 <= length (lop_bytes crc32 id o))%nat.
Proof. destruct o; cbn [lop_bytes]; unfold l_record, v_mark; rewrite ?app_length, ?enc_jm_length; lia. Qed.

Lemma log_bytes_len l : forall id, (length l <= length (log_bytes crc32 id l))%nat.
Proof.
  induction l as [|o l IH]; intros id; cbn [log_bytes length]; [lia|].
  rewrite app_length. pose proof (lop_len id o). specialize (IH (id + 1)). lia.
Qed.

(** reading goes through the operations one by one *)
Lemma v_loop_ops l : forall f r rest g', rok r -> r_closed r = false -> r_id r + N.of_nat (length l) < two64 ->
  Forall (lop_ok crc32) l -> stream r = log_bytes crc32 (r_id r) l ++ rest -> lops_run l (r_g r) = Some g' ->
  exists r', v_loop (length l + f) r = v_loop f r' /\ stream r' = rest /\ rok r' /\
             r_id r' = r_id r + N.of_nat (length l) /\ r_closed r' = false /\ r_g r' = g'.
Proof.
  induction l as [|o l IH]; intros f r rest g' K C I W E U.
  - cbn [log_bytes app length N.of_nat lops_run plus] in *. inversion U. exists r. rewrite N.add_0_r. auto 7.
  - cbn [log_bytes lops_run length] in *. destruct (lop_run o (r_g r)) as [g1 | |] eqn:U1; try congruence.
    inversion W as [|? ? W1 W2]; subst. rewrite <- app_assoc in E.
    destruct (v_next_lop o r _ g1 K ltac:(lia) C W1 E U1) as (r1 & N1 & S1 & K1 & I1 & C1 & G1).
    destruct (IH f r1 rest g' K1 C1) as (r2 & L2 & S2 & K2 & I2 & C2 & G2).
    + rewrite I1. lia.
    + assumption.
    + rewrite S1, I1. reflexivity.
    + rewrite G1. assumption.
    + exists r2. refine (conj _ (conj S2 (conj K2 (conj _ (conj C2 G2))))).
      * rewrite <- L2. cbn [plus V1Model.v_loop]. rewrite N1.
        destruct (stream_cons r _ (fun X => lop_not_nil _ _ (proj1 (app_eq_nil _ _ X))) E) as (b & l' & NE). rewrite NE. reflexivity.
      * rewrite I2, I1. lia.
Qed.

Lemma v_loop_close f r : rok r -> r_id r < two64 -> stream r = v_mark (r_id r) SRC_CLOSED ->
  v_loop (S f) r = VrOk (r_g r, r_id r).
Proof.
  intros K I E. destruct (v_next_close r K I E) as (r1 & N1 & S1 & I1 & C1 & G1).
  destruct (stream_cons r _ (jm_not_nil _) E) as (b & l' & NE).
  cbn [V1Model.v_loop]. rewrite NE, N1. destruct f; cbn [V1Model.v_loop]; rewrite S1, C1, G1, I1; reflexivity.
Qed.

(** each successful step shortens what is left to read *)
Lemma stream_len r : rok0 r -> length (stream r) = (length file - pos r)%nat.
Proof. intros [A B]. unfold v_stream, pos. rewrite app_length, skipn_length. lia. Qed.

Lemma v_recover_pos r r' : rok0 r -> v_recover r = VrOk r' -> rok0 r' /\ pos r' = (pos r + 36)%nat /\ (36 <= length (stream r))%nat.
Proof.
  intros K E. unfold V1Model.v_recover in E. pose proof (v_read_spec0 36 r K) as H.
  destruct (v_read 36 r) as [[b r1] |]; [|congruence]. destruct H as (H1 & H2 & H3 & H4 & H5).
  destruct (_ && _) in E; [|congruence]. inversion E; subst r'. repeat split; try apply H3; [exact H5|].
  rewrite H1, app_length. lia.
Qed.

Lemma v_next_pos r r' : rok0 r -> v_next r = VrOk r' -> rok0 r' /\ (length (stream r') < length (stream r))%nat.
Proof.
  intros K E. unfold V1Model.v_next in E. pose proof (v_read_spec0 36 r K) as H.
  destruct (v_read 36 r) as [[b r1] |]; [|congruence]. destruct H as (H1 & H2 & H3 & H4 & H5).
  assert (L1 : (length (stream r) = 36 + length (stream r1))%nat) by (rewrite H1, app_length, H2; reflexivity).
  assert (REC : forall x, rok0 x -> (pos r <= pos x)%nat -> v_recover x = VrOk r' ->
    rok0 r' /\ (length (stream r') < length (stream r))%nat).
  { intros x Kx Px Ex. apply v_recover_pos in Ex as (Kr & Pr & Lr); [|assumption].
    split; [assumption|]. rewrite (stream_len r' Kr). rewrite (stream_len x Kx) in Lr. rewrite (stream_len r K). lia. }
  destruct (negb _) in E.
  { apply REC in E; [exact E| |]; unfold rok0, pos in *; cbn [v_back r_buf r_in]; lia. }
  destruct (jm_src (dec_jm b) =? SRC_SERVER).
  { destruct (len (stream r1) <? jm_len (dec_jm b)).
    { apply (REC r1 H3); [lia | exact E]. }
    pose proof (v_read_spec0 (N.to_nat (jm_len (dec_jm b))) r1 H3) as H'.
    destruct (v_read (N.to_nat (jm_len (dec_jm b))) r1) as [[p r2] |]; [|congruence].
    destruct H' as (J1 & J2 & J3 & J4 & J5).
    destruct (negb _) in E.
    { apply (REC r2 J3); [lia | exact E]. }
    destruct (upd p (r_g r2)) as [g | g |]; [| |congruence].
    { inversion E; subst r'. split; [exact J3|]. change (stream (v_incr G (v_setg G g r2))) with (stream r2).
      rewrite J1, app_length in L1. lia. }
    apply (REC (v_setg G g r2)); [exact J3 | unfold pos in *; cbn [v_setg r_in r_buf]; lia | exact E]. }
  destruct (jm_src (dec_jm b) =? SRC_CLOSED); [|congruence].
  destruct (stream r1) as [|x l] eqn:ES.
  { inversion E; subst r'. split; [exact H3|]. rewrite L1. change (stream (mk_v1r (r_buf r1) (r_in r1) (r_id r1) true (r_g r1))) with (stream r1).
    rewrite ES. cbn [length]. lia. }
  unfold v_reopen in E. pose proof (v_read_spec0 36 r1 H3) as H'.
  destruct (v_read 36 r1) as [[p r2] |]; [|congruence]. destruct H' as (J1 & J2 & J3 & J4 & J5).
  destruct (_ && _) in E; [|congruence]. inversion E; subst r'. split; [exact J3|].
  change (stream (v_incr G r2)) with (stream r2). rewrite <- ES, J1, app_length in L1. lia.
Qed.

Lemma v_next_no_fuel r : v_next r <> VrFuel.
Proof.
  unfold V1Model.v_next, V1Model.v_recover, v_reopen. intros E.
  repeat (match type of E with
          | match ?x with _ => _ end = _ => destruct x as [] eqn:?
          | (if ?x then _ else _) = _ => destruct x
          end; try congruence).
Qed.

Lemma v_loop_fuel f : forall r, rok0 r -> (length (stream r) <= f)%nat -> v_loop f r <> VrFuel.
Proof.
  induction f as [|f IH]; intros r K L; cbn [V1Model.v_loop]; destruct (stream r) as [|b l] eqn:ES.
  - destruct (r_closed r); congruence.
  - cbn [length] in L. lia.
  - destruct (r_closed r); congruence.
  - destruct (v_next r) as [r' | | |] eqn:N; try congruence.
    + destruct (v_next_pos r r' K N) as [K' L']. apply IH; [assumption|]. rewrite ES in L'. cbn [length] in *. lia.
    + exfalso. exact (v_next_no_fuel r N).
Qed.

Lemma init_ok g : rok (mk_v1r [] 0 0 false g).
Proof. unfold rok, rok0, pos, v_stream. cbn. repeat split; lia. Qed.

(** *** a write that put nothing on the disk *)
Lemma splice r b r1 : rok r -> v_read 36 r = Some (b, r1) -> forall c, (36 <= length (stream r1))%nat \/ stream r1 = [] ->
  forall r2, v_read 36 (v_back G r1) = Some (c, r2) ->
  exists k, (k <= 36)%nat /\ (k = 0%nat \/ (36 <= length (stream r1))%nat) /\ c = firstn k (stream r1) ++ skipn k b.
Proof.
  intros K E c L r2 E2. pose proof (v_read_spec 36 r K) as H. rewrite E in H. destruct H as (H1 & H2 & [[K1 K2] K3] & _).
  pose proof (v_read_spec0 36 r (proj1 K)) as H0. rewrite E in H0. destruct H0 as (_ & _ & _ & _ & P1).
  assert (KB : rok0 (v_back G r1)).
  { unfold rok0, pos in *. cbn [v_back r_buf r_in]. lia. }
  pose proof (v_read_spec0 36 (v_back G r1) KB) as H'. rewrite E2 in H'. destruct H' as (J1 & J2 & _).
  set (n := length (r_buf r1)) in *.
  assert (SB : stream (v_back G r1) = r_buf r1 ++ skipn (r_in r1 - 36) file) by reflexivity.
  (* the 36 bytes before the file's position *)
  assert (FB : b ++ stream r1 = skipn (pos r) file) by (rewrite <- H1; apply K).
  assert (C : c = firstn 36 (r_buf r1 ++ skipn (r_in r1 - 36) file)).
  { rewrite <- SB, J1, firstn_app, <- J2, Nat.sub_diag, firstn_O, app_nil_r, firstn_all. reflexivity. }
  destruct (Nat.le_gt_cases 36 n) as [GE | LT].
  - exists 36%nat. split; [lia|]. split.
    + right. unfold v_stream. rewrite app_length. fold n. lia.
    + rewrite (skipn_all2 b) by lia. rewrite app_nil_r, C. unfold v_stream.
      rewrite !firstn_app. fold n. replace (36 - n)%nat with 0%nat by lia. reflexivity.
  - exists n. split; [lia|]. split.
    + destruct L as [L | L]; [right; exact L|]. left. unfold v_stream in L. apply app_eq_nil in L as [L _].
      unfold n. rewrite L. reflexivity.
    + rewrite C, firstn_app. fold n. rewrite (firstn_all2 (n := 36)) by (fold n; lia).
      unfold v_stream. rewrite (firstn_app n). fold n. rewrite Nat.sub_diag, firstn_O, app_nil_r.
      replace (firstn n (r_buf r1)) with (r_buf r1) by (unfold n; rewrite firstn_all; reflexivity). f_equal.
      assert (Q : (r_in r1 - 36 = pos r + n)%nat) by (unfold pos in *; fold n in P1; lia).
      rewrite Q, <- skipn_twice, <- FB, skipn_app, firstn_app, skipn_length, H2.
      replace (n - 36)%nat with 0%nat by lia. replace (36 - n - (36 - n))%nat with 0%nat by lia.
      rewrite firstn_O, app_nil_r, firstn_all2 by (rewrite skipn_length; lia). reflexivity.
Qed.

Lemma jm_id_dec b : jm_id (dec_jm b) = le_dec (firstn 16 b).
Proof. reflexivity. Qed.

Lemma le_dec_first a b : le_dec (a :: b) mod 256 = b2n a.
Proof. cbn [le_dec]. rewrite (N.mul_comm 256), N.mod_add by lia. apply N.mod_small, b2n_lt. Qed.

Theorem v_next_unwritten r j rest : rok r -> r_id r < two64 -> r_id r <= j -> j < r_id r + 256 -> j < two64 ->
  (rest = [] \/ exists m rest', rest = enc_jm m ++ rest' /\ jm_ok m /\ r_id r < jm_id m /\ jm_id m < r_id r + 256) ->
  stream r = v_mark j SRC_RECOVERY ++ rest -> v_next r = VrErr.
Proof.
  intros K I J1 J2 J3 R E.
  destruct (v_read_app 36 r _ _ K E (enc_jm_length _)) as (r1 & E1 & S1 & K1 & (Q1 & Q2 & Q3)).
  unfold V1Model.v_next. rewrite E1. unfold v_mark. rewrite dec_enc_jm by (apply mark_ok; [assumption | reflexivity]).
  cbn [jm_id jm_src jm_len jm_crc]. rewrite (N.mod_small _ _ J3).
  destruct (r_id r =? j) eqn:EJ; [reflexivity|]. apply N.eqb_neq in EJ. cbn [negb].
  unfold V1Model.v_recover. destruct (v_read 36 (v_back G r1)) as [[c r2] |] eqn:E2; [|reflexivity].
  assert (RL : (36 <= length (stream r1))%nat \/ stream r1 = []).
  { rewrite S1. destruct R as [-> | (m & rest' & -> & _)]; [right; reflexivity|]. left. rewrite app_length, enc_jm_length. lia. }
  destruct (splice r _ r1 K E1 c RL r2 E2) as (k & K36 & KZ & C).
  cbn [v_back r_id]. rewrite Q1.
  assert (NE : jm_id (dec_jm c) <> r_id r).
  { rewrite jm_id_dec. destruct k as [|k].
    - rewrite C, firstn_O, skipn_O. cbn [app]. change (le_dec (firstn 16 (v_mark j SRC_RECOVERY))) with (jm_id (dec_jm (v_mark j SRC_RECOVERY))).
      unfold v_mark. rewrite dec_enc_jm by (apply mark_ok; [assumption | reflexivity]). cbn. lia.
    - destruct R as [-> | (m & rest' & -> & OK & M1 & M2)].
      + rewrite S1 in KZ. cbn in KZ. lia.
      + rewrite S1 in C. unfold enc_jm in C.
        destruct (u128_le (jm_id m)) as [|x u] eqn:EU; [apply (f_equal (@length _)) in EU; rewrite u128_len in EU; discriminate EU|].
        assert (X : b2n x = jm_id m mod 256).
        { rewrite <- (le_dec_first x u), <- EU, u128_dec by apply OK. reflexivity. }
        assert (exists d, c = x :: d) as [d ->] by (rewrite C; cbn [app firstn]; eexists; reflexivity).
        change (firstn 16 (x :: d)) with (x :: firstn 15 d). intros EQ. pose proof (le_dec_first x (firstn 15 d)) as LD. rewrite EQ, X in LD.
        assert (exists q, jm_id m = r_id r + 256 * q \/ r_id r = jm_id m + 256 * q) as [q HQ].
        { exists ((jm_id m - r_id r) / 256). left.
          assert ((jm_id m - r_id r) mod 256 = 0).
          { pose proof (N.div_mod (jm_id m) 256 ltac:(lia)). pose proof (N.div_mod (r_id r) 256 ltac:(lia)).
            replace (jm_id m - r_id r) with ((jm_id m / 256 - r_id r / 256) * 256) by lia. apply N.mod_mul. lia. }
          pose proof (N.div_mod (jm_id m - r_id r) 256 ltac:(lia)). lia. }
        lia. }
  apply N.eqb_neq in NE. rewrite NE. reflexivity.
Qed.

(** *** a log cut short *)
(** the tail of a recovery record: its source, an empty checksum, no payload *)
Definition rec_tail : bytes := u64_le SRC_RECOVERY ++ le_enc 4 0 ++ u64_le 0.
Definition free_of_marks (p : bytes) : Prop := forall a b, p <> a ++ rec_tail ++ b.

Lemma recover_free r p : rok r -> free_of_marks p -> (exists q, p = stream r ++ q) -> v_recover r = VrErr.
Proof.
  intros K F [q Q]. unfold V1Model.v_recover. pose proof (v_read_spec 36 r K) as H.
  destruct (v_read 36 r) as [[b r1] |]; [|reflexivity]. destruct H as (H1 & H2 & _).
  destruct (_ && _) eqn:E; [|reflexivity]. exfalso.
  apply andb_true_iff in E as [E E4]. apply andb_true_iff in E as [E E3]. apply andb_true_iff in E as [E1 E2].
  apply N.eqb_eq in E2, E3, E4. unfold dec_jm in E2, E3, E4. cbn [jm_crc jm_len jm_src] in *.
  apply (F (firstn 16 b) (stream r1 ++ q)). rewrite Q, H1, <- !app_assoc.
  rewrite <- (firstn_skipn 16 b) at 1. rewrite <- app_assoc. f_equal. rewrite !app_assoc. f_equal. f_equal.
  rewrite <- (firstn_skipn 8 (skipn 16 b)). unfold rec_tail.
  assert (L16 : length (skipn 16 b) = 20%nat) by (rewrite skipn_length; lia).
  f_equal.
  { rewrite <- E4. symmetry. apply u64_enc_dec. rewrite firstn_length. lia. }
  rewrite skipn_twice. cbn [plus]. rewrite <- (firstn_skipn 4 (skipn 24 b)).
  assert (L24 : length (skipn 24 b) = 12%nat) by (rewrite skipn_length; lia).
  f_equal.
  { rewrite <- E2. symmetry. apply le_enc_dec_k. rewrite firstn_length. lia. }
  rewrite skipn_twice. cbn [plus]. rewrite <- E3.
  assert (L28 : length (skipn 28 b) = 8%nat) by (rewrite skipn_length; lia).
  rewrite <- (firstn_all2 (n := 8) (skipn 28 b)) at 1 by lia. symmetry. apply u64_enc_dec. rewrite firstn_length. lia.
Qed.

Lemma app_cut (a b p q : bytes) : a ++ b = p ++ q ->
  (exists q1, a = p ++ q1 /\ q1 <> []) \/ (exists p1, p = a ++ p1 /\ b = p1 ++ q).
Proof.
  revert p. induction a as [|x a IH]; intros p E.
  - right. exists p. auto.
  - destruct p as [|y p]; [left; exists (x :: a); split; [reflexivity | congruence]|].
    cbn [app] in E. inversion E as [[E1 E2]]; subst y. destruct (IH p E2) as [(q1 & -> & N) | (p1 & -> & ->)].
    + left. exists q1. auto.
    + right. exists p1. auto.
Qed.

Lemma next_short r : rok r -> (length (stream r) < 36)%nat -> v_next r = VrErr.
Proof. intros K L. unfold V1Model.v_next. rewrite (v_read_short 36 r K L). reflexivity. Qed.

Lemma jm_cut m p q1 : enc_jm m = p ++ q1 -> q1 <> [] -> (length p < 36)%nat.
Proof.
  intros E N. apply (f_equal (@length _)) in E. rewrite enc_jm_length, app_length in E.
  destruct q1; [congruence|]. cbn [length] in E. lia.
Qed.

Definition lop_free (o : lop) : Prop :=
  match o with LEvent p | LSpoilt _ p => free_of_marks p | LRestart => True end.

(** an operation cut short: refused, or only the start after a shutdown is missing *)
Lemma v_next_cut o r q : rok r -> r_id r < two64 -> lop_ok crc32 o -> lop_free o -> stream r <> [] ->
  lop_bytes crc32 (r_id r) o = stream r ++ q -> q <> [] ->
  v_next r = VrErr \/ (o = LRestart /\ stream r = v_mark (r_id r) SRC_CLOSED).
Proof.
  intros K I W F NN E Q.
  assert (I' : r_id r mod two64 = r_id r) by (apply N.mod_small; assumption).
  assert (REC : forall c p tl, len p < two64 -> c < 2 ^ 32 -> (tl = [] \/ (tl = v_mark (r_id r) SRC_RECOVERY /\ crc32 p <> c)) -> free_of_marks p ->
    l_record (r_id r) c p ++ tl = stream r ++ q -> v_next r = VrErr).
  { intros c p tl W1 W2 T FM EE. unfold l_record in EE. rewrite <- app_assoc in EE.
    destruct (app_cut _ _ _ _ EE) as [(q1 & E1 & N1) | (p1 & E1 & E2)].
    { apply next_short; [assumption|]. exact (jm_cut _ _ _ E1 N1). }
    destruct (v_read_app 36 r _ _ K E1 (enc_jm_length _)) as (r1 & R1 & S1 & K1 & (Q1 & Q2 & Q3)).
    unfold V1Model.v_next. rewrite R1, dec_enc_jm by (unfold jm_ok; cbn; unfold two64, two128 in *; repeat split; try assumption; lia).
    cbn [jm_id jm_src jm_len jm_crc]. rewrite I', N.eqb_refl. cbn [negb]. change (SRC_SERVER =? SRC_SERVER) with true. cbn match.
    destruct (app_cut _ _ _ _ E2) as [(q2 & E3 & N3) | (p2 & E3 & E4)].
    - rewrite S1. assert (LL : len p1 < len p).
      { rewrite E3, len_app. destruct q2 as [|y q2]; [congruence|]. rewrite len_cons. lia. }
      apply N.ltb_lt in LL. rewrite LL. apply (recover_free r1 p K1 FM). exists q2. rewrite S1. exact E3.
    - destruct T as [-> | [-> NC]].
      { symmetry in E4. apply app_eq_nil in E4 as [_ E4]. congruence. }
      rewrite S1, E3, len_app. destruct (len p + len p2 <? len p) eqn:LL; [apply N.ltb_lt in LL; lia|].
      rewrite E3 in S1.
      destruct (v_read_app (N.to_nat (len p)) r1 _ _ K1 S1 (eq_sym (Nat2N.id _))) as (r2 & R2 & S2 & K2 & _).
      rewrite R2. apply N.eqb_neq in NC. rewrite NC. cbn [negb]. unfold V1Model.v_recover.
      rewrite v_read_short; [reflexivity | assumption |]. rewrite S2. exact (jm_cut _ _ _ E4 Q). }
  destruct o as [p | c p |]; cbn [lop_bytes lop_ok lop_free] in *.
  - left. apply (REC (crc32 p) p []); [apply W | apply W | left; reflexivity | assumption | rewrite app_nil_r; exact E].
  - left. destruct W as (W1 & W2 & W3). apply (REC c p _ W1 W2 (or_intror (conj eq_refl W3)) F E).
  - destruct (app_cut _ _ _ _ E) as [(q1 & E1 & N1) | (p1 & E1 & E2)].
    { left. apply next_short; [assumption|]. exact (jm_cut _ _ _ E1 N1). }
    destruct p1 as [|x p1]; [right; split; [reflexivity|]; rewrite E1; apply app_nil_r|]. left.
    destruct (v_read_app 36 r _ _ K E1 (enc_jm_length _)) as (r1 & R1 & S1 & K1 & (Q1 & Q2 & Q3)).
    unfold V1Model.v_next. rewrite R1. unfold v_mark. rewrite dec_enc_jm by (apply mark_ok; [assumption | reflexivity]).
    cbn [jm_id jm_src jm_len jm_crc]. rewrite I', N.eqb_refl. cbn [negb].
    change (SRC_CLOSED =? SRC_SERVER) with false. change (SRC_CLOSED =? SRC_CLOSED) with true. cbn match.
    rewrite S1. unfold v_reopen. rewrite v_read_short; [reflexivity | assumption |]. rewrite S1. exact (jm_cut _ _ _ E2 Q).
Qed.

Lemma v_loop_err f r : stream r <> [] -> v_next r = VrErr -> v_loop (S f) r = VrErr.
Proof. intros N E. cbn [V1Model.v_loop]. rewrite E. destruct (stream r); [congruence | reflexivity]. Qed.

(** a whole log cut short *)
Lemma v_loop_cut l : forall f r q g', rok r -> r_closed r = false -> r_id r + N.of_nat (length l) < two64 ->
  Forall (lop_ok crc32) l -> Forall lop_free l -> lops_run l (r_g r) = Some g' ->
  log_bytes crc32 (r_id r) l ++ v_mark (r_id r + N.of_nat (length l)) SRC_CLOSED = stream r ++ q -> q <> [] ->
  v_loop (length l + S f) r = VrErr \/
  exists l1 l2 g1, l = l1 ++ LRestart :: l2 /\ stream r = log_bytes crc32 (r_id r) l1 ++ v_mark (r_id r + N.of_nat (length l1)) SRC_CLOSED /\
    lops_run l1 (r_g r) = Some g1 /\ v_loop (length l + S f) r = VrOk (g1, r_id r + N.of_nat (length l1)).
Proof.
  induction l as [|o l IH]; intros f r q g' K C I W F U E Q.
  - left. cbn [log_bytes app length N.of_nat plus] in *. rewrite N.add_0_r in E.
    destruct (stream r) as [|x s] eqn:ES; [cbn [V1Model.v_loop]; rewrite ES, C; reflexivity|].
    apply v_loop_err; [congruence|]. apply next_short; [assumption|]. rewrite ES. exact (jm_cut _ _ _ E Q).
  - cbn [log_bytes length lops_run] in *. destruct (lop_run o (r_g r)) as [g1 | |] eqn:U1; try congruence.
    inversion W as [|? ? W1 W2]; subst. inversion F as [|? ? F1 F2]; subst. rewrite <- app_assoc in E.
    destruct (app_cut _ _ _ _ E) as [(q1 & E1 & N1) | (p1 & E1 & E2)].
    + destruct (stream r) as [|x s] eqn:ES; [left; cbn [plus V1Model.v_loop]; rewrite ES, C; reflexivity|].
      rewrite <- ES in E1. destruct (v_next_cut o r q1 K ltac:(lia) W1 F1 ltac:(congruence) E1 N1) as [N | (-> & N)].
      * left. cbn [plus]. apply v_loop_err; [congruence | assumption].
      * right. exists [], l, (r_g r). cbn [app length N.of_nat log_bytes lops_run]. rewrite N.add_0_r, <- ES.
        repeat split; [assumption|]. cbn [plus]. apply v_loop_close; [assumption | lia | assumption].
    + destruct (v_next_lop o r _ g1 K ltac:(lia) C W1 E1 U1) as (r1 & N1 & S1 & K1 & I1 & C1 & G1).
      rewrite <- S1, <- I1 in E2. rewrite <- G1 in U.
      replace (r_id r + N.of_nat (S (length l))) with (r_id r1 + N.of_nat (length l)) in * by (rewrite I1; lia).
      assert (ST : v_loop (length (o :: l) + S f) r = v_loop (length l + S f) r1).
      { cbn [length plus V1Model.v_loop]. rewrite N1.
        destruct (stream_cons r _ (fun X => lop_not_nil _ _ (proj1 (app_eq_nil _ _ X))) E1) as (b & l' & NE). rewrite NE. reflexivity. }
      cbn [length plus] in ST |- *.
      destruct (IH f r1 q g' K1 C1 I W2 F2 U E2 Q) as [V | (l1 & l2 & g2 & V1 & V2 & V3 & V4)].
      * left. rewrite ST. exact V.
      * right. exists (o :: l1), l2, g2. rewrite V1. cbn [app log_bytes length lops_run]. rewrite U1, <- G1.
        rewrite S1 in V2. rewrite E1, V2. rewrite <- V1, ST, V4. rewrite <- app_assoc, <- I1.
        replace (r_id r + N.of_nat (S (length l1))) with (r_id r1 + N.of_nat (length l1)) by (rewrite I1; lia).
        repeat split. exact V3.
Qed.
End Log.
