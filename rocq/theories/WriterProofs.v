From Coq Require Import List NArith Lia Bool.
From Verif Require Import Bytes CrcModel CrcProofs WriterModel.
Import ListNotations.
Local Open Scope N_scope.

(** operating systems that write a buffer completely or fail without writing *)
Definition atomic (env : list sys) : Prop := Forall (fun o => o = SysFull \/ o = SysErr) env.

Lemma atomic_nil : atomic [].
Proof. constructor. Qed.

Lemma len_0 l : len l = 0 -> l = [].
Proof. destruct l; [reflexivity|]. rewrite len_cons. lia. Qed.

Lemma firstn_len (l : bytes) : firstn (N.to_nat (len l)) l = l.
Proof. unfold len. rewrite Nat2N.id. apply firstn_all. Qed.

Lemma skipn_len (l : bytes) : skipn (N.to_nat (len l)) l = [].
Proof. unfold len. rewrite Nat2N.id. apply skipn_all. Qed.

Lemma fwrite_done env file buf w : w = len buf -> fwrite_loop env file buf w = (env, file, w, WOk).
Proof. intros ->. destruct env; simpl; rewrite N.eqb_refl; reflexivity. Qed.

Lemma fwrite_atomic env file buf env' file' n r :
  atomic env -> fwrite_all_count env file buf = (env', file', n, r) ->
  atomic env' /\
  ((r = WOk /\ file' = file ++ buf /\ n = len buf) \/ (r = WErr /\ file' = file /\ n = 0 /\ 0 < len buf)).
Proof.
  intros HA E. unfold fwrite_all_count in E.
  destruct env as [|o env]; cbn [fwrite_loop sys_count] in E.
  - destruct (N.eqb_spec 0 (len buf)) as [H|H]; [|change (0 =? 0) with true in E; cbv iota in E];
      injection E as <- <- <- <-; (split; [apply atomic_nil|]); left.
    + symmetry in H. apply len_0 in H. subst. rewrite app_nil_r. auto.
    + auto.
  - inversion HA as [|? ? Ho HA']; subst.
    destruct (N.eqb_spec 0 (len buf)) as [H|H].
    + injection E as <- <- <- <-. split; auto. left. symmetry in H. apply len_0 in H. subst.
      rewrite app_nil_r. auto.
    + destruct Ho as [-> | ->]; cbn [fwrite_loop sys_count] in E.
      * destruct (N.eqb_spec (len buf) 0) as [H0|_]; [lia|].
        rewrite firstn_len, fwrite_done in E by lia. injection E as <- <- <- <-. split; auto.
      * injection E as <- <- <- <-. split; auto. right. repeat split; auto. lia.
Qed.

Lemma fwrite_nil file buf : fwrite_all_count [] file buf = ([], file ++ buf, len buf, WOk).
Proof.
  unfold fwrite_all_count; cbn [fwrite_loop]. destruct (N.eqb_spec 0 (len buf)) as [H|H]; auto.
  rewrite <- H. symmetry in H. apply len_0 in H. subst. rewrite app_nil_r. reflexivity.
Qed.

(** ** short writes *)
Lemma fwrite_short_then_full n k file buf w :
  0 < len buf -> (w <> 0 /\ w <> len buf /\ forall j, w + N.of_nat j * len buf <> len buf) ->
  n = w ->
  forall tail, fwrite_loop (repeat SysFull k ++ SysErr :: tail) file buf n
  = (tail, file ++ concat (repeat buf k), w + N.of_nat k * len buf, WErr).
Proof.
  intros Hb Hw -> tail. revert file w Hw. induction k as [|k IH]; intros file w (H0 & H1 & Hj).
  - simpl. destruct (N.eqb_spec w (len buf)); [congruence|].
    rewrite app_nil_r, N.add_0_r. reflexivity.
  - cbn [repeat app fwrite_loop sys_count concat].
    destruct (N.eqb_spec w (len buf)); [congruence|].
    destruct (N.eqb_spec (len buf) 0); [lia|].
    rewrite firstn_len. rewrite IH.
    + rewrite <- app_assoc. f_equal; f_equal. lia.
    + split; [lia|]. split; [lia|]. intros j. specialize (Hj (S j)). lia.
Qed.

Section WithCap.
Variable cap : N.

(** The writer's invariant in an all-or-nothing environment: disk plus buffer is [d], the cursor is
    the size of the disk file and the buffer fits. *)
Definition winv (w : tw) (d : bytes) : Prop :=
  w_file w ++ w_buf w = d /\ w_cursor w = len (w_file w) /\ len (w_buf w) <= cap /\ atomic (w_env w).

Lemma flush_buf_inv w d w' r : winv w d -> flush_buf w = (w', r) ->
  winv w' d /\ (r = WOk \/ r = WErr) /\ w_ck w' = w_ck w /\ w_part w' = w_part w /\
  (r = WOk -> w_buf w' = [] /\ w_file w' = d /\ w_cursor w' = len (w_file w) + len (w_buf w)) /\
  (r = WErr -> w_cursor w' = w_cursor w).
Proof.
  intros (Hd & Hc & Hb & He) E. unfold flush_buf in E.
  destruct (fwrite_all_count (w_env w) (w_file w) (w_buf w)) as [[[env file] n] r0] eqn:F.
  apply fwrite_atomic in F as [Ha [(-> & -> & ->)|(-> & -> & -> & Hpos)]]; auto.
  - rewrite N.ltb_irrefl in E. injection E as <- <-. cbn. rewrite skipn_len.
    unfold winv; cbn [w_file w_buf w_cursor w_ck w_part w_env]. rewrite app_nil_r.
    assert (Z : len [] <= cap) by (rewrite len_nil; lia).
    repeat split; auto.
    + rewrite Hc, len_app. reflexivity.
    + rewrite Hc. reflexivity.
    + discriminate.
  - destruct (N.ltb_spec (len (w_buf w)) 0); [lia|]. injection E as <- <-. cbn.
    rewrite N.add_0_r. unfold winv; cbn. repeat split; auto. all: discriminate.
Qed.

Lemma untracked_write_inv w d b w' r : winv w d -> untracked_write cap w b = (w', r) ->
  (r = WOk \/ r = WErr) /\ winv w' (if match r with WOk => true | _ => false end then d ++ b else d) /\
  w_ck w' = w_ck w /\ w_part w' = w_part w /\
  (r = WErr -> w_cursor w' - w_cursor w <= len b).
Proof.
  intros I E. unfold untracked_write in E.
  destruct (N.leb_spec (len b) (cap - len (w_buf w))) as [H|H].
  - injection E as <- <-. destruct I as (Hd & Hc & Hb & He). repeat split; cbn; auto.
    + rewrite app_assoc, Hd. reflexivity.
    + rewrite len_app. lia.
    + discriminate.
  - destruct (flush_buf w) as [w1 r1] eqn:F. pose proof I as (_ & Hc0 & Hb0 & _).
    apply (flush_buf_inv _ _ _ _ I) in F as (I1 & Hr & Hk & Hp & Hok & Herr).
    destruct Hr as [-> | ->].
    + destruct (Hok eq_refl) as (Hbuf & Hfile & Hcur).
      destruct (fwrite_all_count (w_env w1) (w_file w1) (firstn (N.to_nat (len b - cap)) b))
        as [[[env file] n] r2] eqn:G.
      destruct I1 as (Hd & Hc & Hb & He).
      apply fwrite_atomic in G as [Ha [(-> & -> & ->)|(-> & -> & -> & Hpos)]]; auto.
      * injection E as <- <-. repeat split; cbn; auto.
        -- rewrite Hbuf. cbn. rewrite <- Hd, Hbuf, app_nil_r, <- app_assoc, firstn_skipn. reflexivity.
        -- rewrite Hc, len_app. reflexivity.
        -- rewrite Hbuf. cbn [app]. unfold len. rewrite skipn_length. unfold len in *. lia.
        -- discriminate.
      * injection E as <- <-. unfold winv; cbn. rewrite Hbuf in *. repeat split; auto.
        -- rewrite N.add_0_r. exact Hc.
        -- intros _. rewrite N.add_0_r, Hcur, Hc0.
           unfold len in Hpos. rewrite firstn_length in Hpos. unfold len in *. lia.
    + injection E as <- <-. repeat split; auto; try apply I1. intros _. rewrite Herr; auto. lia.
Qed.

(** what an operation asks to be written *)
Definition payload (o : wop) : bytes :=
  match o with OpWrite b | OpDWrite b | OpThrough b => b | _ => [] end.
Definition accepted (o : wop) (r : wres) : bytes :=
  match r with WOk => payload o | _ => [] end.

Lemma tracked_write_inv w d b w' r : winv w d -> tracked_write cap w b = (w', r) ->
  (r = WOk \/ r = WErr) /\ winv w' (d ++ accepted (OpWrite b) r) /\ w_part w' = w_part w /\
  (r = WOk -> w_ck w' = crc_update (w_ck w) b).
Proof.
  intros I E. unfold tracked_write in E.
  destruct (untracked_write cap w b) as [w1 r1] eqn:U.
  apply (untracked_write_inv _ _ _ _ _ I) in U as (Hr & I1 & Hk & Hp & Hn).
  destruct Hr as [-> | ->].
  - injection E as <- <-. cbn. rewrite Hk. repeat split; auto; apply I1.
  - specialize (Hn eq_refl). destruct (N.ltb_spec (len b) (w_cursor w1 - w_cursor w)); [lia|].
    injection E as <- <-. cbn. rewrite app_nil_r. repeat split; auto; try apply I1. discriminate.
Qed.

Lemma flush_sync_inv w d w' r : winv w d -> flush_sync w = (w', r) ->
  (r = WOk \/ r = WErr) /\ winv w' d /\ w_ck w' = w_ck w /\ w_part w' = w_part w /\
  (r = WOk -> w_buf w' = [] /\ w_file w' = d).
Proof.
  intros I E. unfold flush_sync in E. destruct (flush_buf w) as [w1 r1] eqn:F.
  apply (flush_buf_inv _ _ _ _ I) in F as (I1 & Hr & Hk & Hp & Hok & Herr).
  destruct Hr as [-> | ->].
  - destruct (Hok eq_refl) as (Hbuf & Hfile & _).
    destruct (w_env w1) as [|o env] eqn:En; injection E as <- <-.
    + repeat split; auto; apply I1.
    + destruct I1 as (Hd & Hc & Hb & He). rewrite En in He. inversion He; subst.
      split; [destruct o; auto|]. unfold winv. cbn. repeat split; auto.
  - injection E as <- <-. repeat split; auto; try apply I1; discriminate.
Qed.

Lemma w_do_inv w d o w' r : winv w d -> w_do cap w o = (w', r) ->
  winv w' (d ++ accepted o r) /\ r <> WLoop /\
  (r = WOk -> w_ck w' = crc_update (w_ck w) (payload o)) /\
  (r = WOk -> o = OpFlush \/ o = OpSync -> w_buf w' = []) /\
  (r = WPanic -> w' = w /\ w_buf w <> [] /\ exists b, o = OpThrough b).
Proof.
  intros I E. destruct o as [b|b|b| |]; cbn [w_do] in E.
  - apply (tracked_write_inv _ _ _ _ _ I) in E as ([-> | ->] & I1 & Hp & Hk); repeat split;
      auto; try apply I1; try discriminate. all: intros _ [C|C]; discriminate C.
  - unfold dtrack_write in E. destruct (tracked_write cap w b) as [w1 r1] eqn:T.
    apply (tracked_write_inv _ _ _ _ _ I) in T as ([-> | ->] & I1 & Hp & Hk); injection E as <- <-.
    + cbn. repeat split; auto; try apply I1; try discriminate. all: intros _ [C|C]; discriminate C.
    + repeat split; auto; try apply I1; try discriminate.
  - unfold tracked_write_through in E. destruct (w_buf w) as [|x l] eqn:B.
    + destruct (fwrite_all_count (w_env w) (w_file w) b) as [[[env file] n] r0] eqn:F.
      destruct I as (Hd & Hc & Hb & He). rewrite B, app_nil_r in Hd.
      apply fwrite_atomic in F as [Ha [(-> & -> & ->)|(-> & -> & -> & Hpos)]]; auto.
      * injection E as <- <-. unfold winv; cbn [w_file w_buf w_cursor w_ck w_part w_env accepted payload].
        assert (Z : len [] <= cap) by (rewrite len_nil; lia).
        rewrite app_nil_r, Hd. repeat split; auto; try discriminate.
        rewrite Hc, Hd, len_app. reflexivity.
      * destruct (N.ltb_spec (len b) 0); [lia|]. injection E as <- <-.
        unfold winv; cbn [w_file w_buf w_cursor w_ck w_part w_env accepted payload].
        assert (Z : len [] <= cap) by (rewrite len_nil; lia).
        rewrite !app_nil_r, N.add_0_r. repeat split; auto; try discriminate.
    + injection E as <- <-. cbn. rewrite app_nil_r. split; [exact I|].
      split; [discriminate|]. split; [discriminate|]. split; [discriminate|].
      intros _. repeat split; [discriminate|eauto].
  - apply (flush_buf_inv _ _ _ _ I) in E as (I1 & [-> | ->] & Hk & Hp & Hok & Herr);
      cbn; rewrite app_nil_r; (split; [exact I1|]); repeat split; try discriminate.
    + rewrite Hk. reflexivity.
    + intros _ _. apply Hok; auto.
  - apply (flush_sync_inv _ _ _ _ I) in E as ([-> | ->] & I1 & Hk & Hp & Hok);
      cbn; rewrite app_nil_r; (split; [exact I1|]); repeat split; try discriminate.
    + rewrite Hk. reflexivity.
    + intros _ _. apply Hok; auto.
Qed.

(** everything accepted by a run, in order *)
Fixpoint accepted_all (ops : list wop) (rs : list wres) : bytes :=
  match ops, rs with
  | o :: ops', r :: rs' => accepted o r ++ accepted_all ops' rs'
  | _, _ => []
  end.

Lemma w_run_inv ops : forall w d w' rs, winv w d -> w_run cap w ops = (w', rs) ->
  winv w' (d ++ accepted_all ops rs) /\ ~ In WLoop rs.
Proof.
  induction ops as [|o ops IH]; intros w d w' rs I E; simpl in E.
  - injection E as <- <-. cbn. rewrite app_nil_r. auto.
  - destruct (w_do cap w o) as [w1 r] eqn:D.
    apply (w_do_inv _ _ _ _ _ I) in D as (I1 & HL & _ & _ & _).
    assert (Stop : forall rr, r = rr -> (w', rs) = (w1, [rr]) ->
       winv w' (d ++ accepted_all (o :: ops) rs) /\ ~ In WLoop rs).
    { intros rr -> Eq. injection Eq as -> ->. split.
      - replace (accepted_all (o :: ops) [rr]) with (accepted o rr); [exact I1|].
        simpl. destruct ops; rewrite app_nil_r; reflexivity.
      - simpl. intros [C|[]]. congruence. }
    destruct r.
    + destruct (w_run cap w1 ops) as [w2 rs2] eqn:R. injection E as <- <-.
      apply (IH _ _ _ _ I1) in R as [I2 N2]. cbn [accepted_all].
      rewrite app_assoc. split; [exact I2|]. simpl. intros [C|C]; congruence.
    + destruct (w_run cap w1 ops) as [w2 rs2] eqn:R. injection E as <- <-.
      apply (IH _ _ _ _ I1) in R as [I2 N2]. cbn [accepted_all].
      rewrite app_assoc. split; [exact I2|]. simpl. intros [C|C]; congruence.
    + apply (Stop WPanic); auto.
    + congruence.
Qed.

Lemma w_run_ck ops : forall w d w' rs, winv w d -> w_run cap w ops = (w', rs) ->
  Forall (fun r => r = WOk) rs ->
  List.length rs = List.length ops /\ w_ck w' = crc_update (w_ck w) (concat (map payload ops)) /\
  accepted_all ops rs = concat (map payload ops).
Proof.
  induction ops as [|o ops IH]; intros w d w' rs I E HF; simpl in E.
  - injection E as <- <-. cbn. auto.
  - destruct (w_do cap w o) as [w1 r] eqn:D.
    apply (w_do_inv _ _ _ _ _ I) in D as (I1 & HL & Hk & _ & _).
    destruct r.
    2: { destruct (w_run cap w1 ops) as [w2 rs2]; injection E as <- <-; inversion HF; discriminate. }
    2,3: injection E as <- <-; inversion HF; discriminate.
    destruct (w_run cap w1 ops) as [w2 rs2] eqn:R. injection E as <- <-. inversion HF; subst.
    apply (IH _ _ _ _ I1) in R as (L & K & A); auto. cbn [map concat accepted_all accepted List.length]. rewrite L, K, A, (Hk eq_refl), crc_update_app.
    auto.
Qed.

Lemma w_run_app ops1 : forall ops2 w w1 rs1,
  w_run cap w ops1 = (w1, rs1) -> Forall (fun r => r = WOk) rs1 ->
  w_run cap w (ops1 ++ ops2) = (let '(w2, rs2) := w_run cap w1 ops2 in (w2, rs1 ++ rs2)).
Proof.
  induction ops1 as [|o ops IH]; intros ops2 w w1 rs1 E HF; simpl in *.
  - injection E as <- <-. destruct (w_run cap w ops2); reflexivity.
  - destruct (w_do cap w o) as [w2 r]. destruct r.
    2: { destruct (w_run cap w2 ops) as [w3 rs2]; injection E as <- <-; inversion HF; discriminate. }
    2,3: injection E as <- <-; inversion HF; discriminate.
    destruct (w_run cap w2 ops) as [w3 rs2] eqn:R. injection E as <- <-. inversion HF; subst.
    rewrite (IH ops2 _ _ _ R) by auto. destruct (w_run cap w3 ops2). reflexivity.
Qed.

(** healthy disk: every operation succeeds (write-through needs an empty buffer) *)
Definition happy (w : tw) (d : bytes) : Prop := winv w d /\ w_env w = [].

Lemma flush_buf_happy w d : happy w d ->
  exists w', flush_buf w = (w', WOk) /\ happy w' d /\ w_buf w' = [] /\ w_file w' = d /\
             w_ck w' = w_ck w /\ w_part w' = w_part w.
Proof.
  intros [I En]. destruct (flush_buf w) as [w' r] eqn:F. pose proof F as F'.
  apply (flush_buf_inv _ _ _ _ I) in F as (I1 & Hr & Hk & Hp & Hok & Herr).
  unfold flush_buf in F'. rewrite En, fwrite_nil, N.ltb_irrefl in F'. injection F' as <- <-.
  destruct (Hok eq_refl) as (? & ? & ?). eexists. split; [reflexivity|]. repeat split; auto; apply I1.
Qed.

Lemma tracked_write_happy w d b : happy w d ->
  exists w', tracked_write cap w b = (w', WOk) /\ happy w' (d ++ b) /\
             w_ck w' = crc_update (w_ck w) b /\ w_part w' = w_part w.
Proof.
  intros [I En]. destruct (tracked_write cap w b) as [w' r] eqn:T. pose proof T as T'.
  apply (tracked_write_inv _ _ _ _ _ I) in T as (Hr & I1 & Hp & Hk).
  assert (r = WOk /\ w_env w' = []) as [-> En'].
  { unfold tracked_write, untracked_write in T'.
    destruct (len b <=? cap - len (w_buf w)).
    - injection T' as <- <-. auto.
    - destruct (flush_buf_happy w d (conj I En)) as (w1 & F & [I' En1] & _). rewrite F, En1, fwrite_nil in T'.
      injection T' as <- <-. auto. }
  eexists. split; [reflexivity|]. repeat split; auto; apply I1.
Qed.

Lemma dtrack_write_happy w d b : happy w d ->
  exists w', dtrack_write cap w b = (w', WOk) /\ happy w' (d ++ b) /\
             w_ck w' = crc_update (w_ck w) b /\ w_part w' = crc_update (w_part w) b.
Proof.
  intros H. destruct (tracked_write_happy w d b H) as (w' & E & [I En] & Hk & Hp).
  unfold dtrack_write. rewrite E. eexists. split; [reflexivity|]. cbn. rewrite Hp.
  repeat split; auto; apply I.
Qed.

Lemma flush_sync_happy w d : happy w d ->
  exists w', flush_sync w = (w', WOk) /\ happy w' d /\ w_buf w' = [] /\ w_file w' = d /\
             w_ck w' = w_ck w /\ w_part w' = w_part w.
Proof.
  intros H. destruct (flush_buf_happy w d H) as (w' & E & [I En] & ?).
  unfold flush_sync. rewrite E, En. eexists. split; [reflexivity|]. repeat split; auto; try apply I; tauto.
Qed.

Lemma through_happy w d b : happy w d -> w_buf w = [] ->
  exists w', tracked_write_through w b = (w', WOk) /\ happy w' (d ++ b) /\ w_buf w' = [] /\
             w_file w' = d ++ b /\ w_ck w' = crc_update (w_ck w) b /\ w_part w' = w_part w.
Proof.
  intros [(Hd & Hc & Hb & He) En] B. unfold tracked_write_through. rewrite B, En, fwrite_nil.
  rewrite B, app_nil_r in Hd.
  assert (Z : len [] <= cap) by (rewrite len_nil; lia).
  eexists. split; [reflexivity|]. unfold happy, winv; cbn [w_file w_buf w_cursor w_ck w_part w_env].
  rewrite app_nil_r, Hd, Hc, Hd, len_app. repeat split; auto using atomic_nil.
Qed.
End WithCap.
