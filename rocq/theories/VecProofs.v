(** Proofs for C90. *)
From Coq Require Import List Arith Bool Lia Permutation.
From Verif Require Import VecModel VecSpec.
Import ListNotations.

Section P.
Variable T : Type.
Notation slots := (slots T).
Notation world := (world T).
Notation blocks := (blocks T).
Notation next := (next T).
Notation drops := (drops T).
Notation some := (map (@Some T)).

(** ** Slots *)
Lemma inits_some (xs : list T) : inits T (some xs) = Some xs.
Proof. induction xs as [|x xs IH]; [reflexivity|]. cbn. rewrite IH. reflexivity. Qed.
Lemma sl_mid (a b c : list T) (r : slots) : sl T (some (a ++ b ++ c) ++ r) (length a) (length b) = Some b.
Proof.
  unfold sl. rewrite app_length, map_length, !app_length. assert (L : length a + length b <=? length a + (length b + length c) + length r = true) by (apply Nat.leb_le; lia). rewrite L.
  rewrite !map_app, <- !app_assoc. rewrite <- (map_length Some a). rewrite skipn_app, skipn_all, Nat.sub_diag. cbn [app skipn]. rewrite <- (map_length Some b), firstn_app, Nat.sub_diag, firstn_all. cbn [firstn]. rewrite app_nil_r. apply inits_some.
Qed.
Lemma sl_all (xs : list T) (r : slots) : sl T (some xs ++ r) 0 (length xs) = Some xs.
Proof. pose proof (sl_mid [] xs [] r) as H. cbn [app length] in H. rewrite app_nil_r in H. exact H. Qed.
Lemma wr_end (xs : list T) o (r : slots) x : wr T (some xs ++ o :: r) (length xs) x = Some (some (xs ++ [x]) ++ r).
Proof. induction xs as [|y xs IH]; [reflexivity|]. cbn. rewrite IH. reflexivity. Qed.
Lemma rd_at (xs : list T) (r : slots) i x : nth_error xs i = Some x -> rd T (some xs ++ r) i = Some x.
Proof.
  intros E. unfold rd. rewrite nth_error_app1 by (rewrite map_length; apply nth_error_Some; congruence). rewrite nth_error_map, E. reflexivity.
Qed.
Lemma cpy_remove (xs : list T) (r : slots) i : i < length xs ->
  exists o r', length (o :: r) = length r' /\ cpy T (some xs ++ r) (i + 1) i (length xs - i - 1) = Some (some (without T i xs) ++ r').
Proof.
  intros I. unfold cpy. rewrite app_length, map_length.
  assert (C1 : i + 1 + (length xs - i - 1) <=? length xs + length r = true) by (apply Nat.leb_le; lia). assert (C2 : i + (length xs - i - 1) <=? length xs + length r = true) by (apply Nat.leb_le; lia). rewrite C1, C2. cbn [andb].
  exists None, (skipn (i + (length xs - i - 1)) (some xs ++ r)). split; [rewrite skipn_length, app_length, map_length; cbn; lia|]. f_equal. rewrite app_assoc. f_equal. unfold without. rewrite map_app. f_equal.
  - rewrite firstn_app, map_length. replace (i - length xs) with 0 by lia. cbn [firstn]. rewrite app_nil_r. apply firstn_map.
  - rewrite skipn_app, map_length. replace (i + 1 - length xs) with 0 by lia. cbn [skipn]. rewrite firstn_app, skipn_length, map_length. replace (length xs - i - 1 - (length xs - (i + 1))) with 0 by lia. cbn [firstn]. rewrite app_nil_r.
    rewrite firstn_all2; [|rewrite skipn_length, map_length; lia]. rewrite skipn_map. replace (i + 1) with (S i) by lia. reflexivity.
Qed.
Lemma blit_fresh (xs : list T) (r : slots) n : length xs <= n -> blit T (some xs ++ r) (repeat None n) (length xs) = Some (some xs ++ repeat None (n - length xs)).
Proof.
  intros L. unfold blit. rewrite app_length, map_length, repeat_length. assert (C1 : length xs <=? length xs + length r = true) by (apply Nat.leb_le; lia). assert (C2 : length xs <=? n = true) by (apply Nat.leb_le; lia). rewrite C1, C2. cbn [andb]. f_equal. f_equal.
  - rewrite <- (map_length Some xs) at 1. rewrite firstn_app, Nat.sub_diag, firstn_all. cbn. apply app_nil_r.
  - replace n with (length xs + (n - length xs)) at 1 by lia. rewrite repeat_app. rewrite skipn_app, repeat_length, Nat.sub_diag. cbn [skipn]. rewrite skipn_all2; [reflexivity|]. rewrite repeat_length. lia.
Qed.

Lemma nth_mid (a c : list T) x : nth_error (a ++ x :: c) (length a) = Some x.
Proof. rewrite nth_error_app2 by lia. rewrite Nat.sub_diag. reflexivity. Qed.
End P.

Section PV.
Variable T : Type.
Notation slots := (slots T).
Notation world := (world T).
Notation blocks := (blocks T).
Notation next := (next T).
Notation drops := (drops T).
Notation some := (map (@Some T)).
Variable N : nat.
Hypothesis N1 : 0 < N.
Notation vin := (vin T).
Notation V := (V T).
Notation UStack := (UStack T).
Notation UHeap := (UHeap T).
(** the vector holds [xs]; the blocks other than its own are those of [B]; [D] was destroyed *)
Inductive rep (B : nat -> option slots) (D : list T) (w : world) (v : vin) (xs : list T) : Prop :=
| RStack r : vd T v = UStack (some xs ++ r) -> vl T v = length xs -> vc T v = N -> length xs + length r = N ->
    fresh T w -> (forall b, blocks w b = B b) -> drops w = D -> rep B D w v xs
| RHeap a r : vd T v = UHeap a -> vl T v = length xs -> N < vc T v -> length xs + length r = vc T v -> blocks w a = Some (some xs ++ r) ->
    fresh T w -> B a = None -> (forall b, b <> a -> blocks w b = B b) -> drops w = D -> rep B D w v xs.

Lemma rep_len B D w v xs : rep B D w v xs -> vl T v = length xs.
Proof. intros []; assumption. Qed.
Lemma stack_yes v : vc T v = N -> on_stack T N v = true.
Proof. intros E. unfold on_stack. rewrite E. apply Nat.eqb_refl. Qed.
Lemma stack_no v : N < vc T v -> on_stack T N v = false.
Proof. intros E. unfold on_stack. apply Nat.eqb_neq. lia. Qed.
Lemma rep_at B D w v xs : rep B D w v xs -> exists r, v_at T N w v = Some (some xs ++ r).
Proof.
  intros [r E L C S F Q DD|a r E L C S A F BA Q DD]; exists r; unfold v_at.
  - rewrite (stack_yes v C), E. reflexivity.
  - rewrite (stack_no v C), E. exact A.
Qed.
Lemma rep_slice B D w v xs : rep B D w v xs -> v_slice T N w v = Some xs.
Proof. intros R. unfold v_slice. destruct (rep_at _ _ _ _ _ R) as (r & ->). rewrite (rep_len _ _ _ _ _ R). apply sl_all. Qed.
Lemma rep_new B w : fresh T w -> (forall b, blocks w b = B b) -> rep B (drops w) w (v_new T N) [].
Proof. intros F Q. apply (RStack _ _ _ _ _ (repeat None N)); try reflexivity; [cbn; apply repeat_length|exact F|exact Q]. Qed.

(** changing the elements in place *)
Lemma rep_write B D w v xs ys s' r' k : rep B D w v xs -> s' = some ys ++ r' -> (forall s, v_at T N w v = Some s -> length s' = length s) -> k = length ys ->
  exists w', fst (v_set T w v s') = w' /\ rep B D w' (V (vd T (snd (v_set T w v s'))) k (vc T (snd (v_set T w v s')))) ys.
Proof.
  intros R ES LS K. subst s'. destruct (rep_at _ _ _ _ _ R) as (r0 & AT). specialize (LS _ AT). rewrite !app_length, !map_length in LS. destruct R as [r E L C S F Q DD|a r E L C S A F BA Q DD].
  - unfold v_set. rewrite E. cbn [fst snd vd vl vc]. exists w. split; [reflexivity|]. apply (RStack _ _ _ _ _ r'); try assumption; [reflexivity|].
    unfold v_at in AT. rewrite (stack_yes v C), E in AT. injection AT as AT. apply app_inv_head in AT. subst r0. lia.
  - unfold v_set. rewrite E. cbn [fst snd]. eexists. split; [reflexivity|].
    unfold v_at in AT. rewrite (stack_no v C), E, A in AT. injection AT as AT. apply app_inv_head in AT. subst r0.
    apply (RHeap _ _ _ _ _ a r'); cbn [vd vl vc VecModel.blocks VecModel.next VecModel.drops]; try assumption.
    + lia.
    + rewrite Nat.eqb_refl. reflexivity.
    + intros b X. cbn [VecModel.blocks VecModel.next] in *. destruct (Nat.eqb_spec b a) as [->|]; [|apply F; exact X]. rewrite (F a X) in A. discriminate A.
    + intros b X. destruct (Nat.eqb_spec b a); [contradiction|]. apply Q. exact X.
Qed.

(** ** Operations *)
Lemma rep_pushu B D w v xs x : rep B D w v xs -> length xs < vc T v -> exists w' v', push_unchecked T N w v x = Some (w', v') /\ rep B D w' v' (xs ++ [x]).
Proof.
  intros R L. unfold push_unchecked. destruct (rep_at _ _ _ _ _ R) as (r & AT). rewrite AT, (rep_len _ _ _ _ _ R).
  assert (RL : length xs + length r = vc T v).
  { destruct R as [r0 E L0 C S F Q DD|a r0 E L0 C S A F BA Q DD]; unfold v_at in AT; [rewrite (stack_yes v C), E in AT; injection AT as AT|rewrite (stack_no v C), E, A in AT; injection AT as AT]; apply app_inv_head in AT; subst r0; lia. }
  destruct r as [|o r]; [cbn in RL; lia|]. rewrite wr_end.
  destruct (rep_write B D w v xs (xs ++ [x]) (some (xs ++ [x]) ++ r) r (S (vl T v)) R eq_refl) as (w' & E1 & R').
  - intros s Q. rewrite AT in Q. injection Q as <-. rewrite !app_length, !map_length, app_length. cbn. lia.
  - rewrite (rep_len _ _ _ _ _ R), app_length. cbn. lia.
  - assert (VL : vl T (snd (v_set T w v (some (xs ++ [x]) ++ r))) = vl T v) by (unfold v_set; destruct (vd T v); reflexivity).
    destruct (v_set T w v (some (xs ++ [x]) ++ r)) as (w1, v1) eqn:VS. cbn [fst snd] in *. eexists _, _. split; [reflexivity|]. rewrite VL. rewrite E1. exact R'.
Qed.
(** moving into a new block *)
Lemma alloc_fresh w n : 0 < n -> fresh T w -> exists w', alloc_array T w n = (w', S (next w)) /\ fresh T w' /\ blocks w' (S (next w)) = Some (repeat None n) /\
  (forall b, b <> S (next w) -> blocks w' b = blocks w b) /\ drops w' = drops w.
Proof.
  intros P F. unfold alloc_array. destruct (Nat.eqb_spec n 0); [lia|]. eexists. split; [reflexivity|]. cbn [VecModel.blocks VecModel.next VecModel.drops]. split.
  - intros a X. cbn [VecModel.blocks VecModel.next] in *. destruct (Nat.eqb_spec a (S (next w))); [lia|]. apply F. lia.
  - split; [rewrite Nat.eqb_refl; reflexivity|]. split; [|reflexivity]. intros b X. apply Nat.eqb_neq in X. rewrite X. reflexivity.
Qed.
Lemma blit_to_fresh w xs r a n : blocks w a = Some (repeat None n) -> length xs <= n -> fresh T w ->
  exists w', blit_to T w (some xs ++ r) a (length xs) = Some w' /\ blocks w' a = Some (some xs ++ repeat None (n - length xs)) /\
    (forall b, b <> a -> blocks w' b = blocks w b) /\ drops w' = drops w /\ fresh T w'.
Proof.
  intros A L F. unfold blit_to. destruct (Nat.eqb_spec (length xs) 0) as [Z|Z].
  - destruct xs; [|discriminate Z]. exists w. split; [reflexivity|]. cbn [length map app]. rewrite Nat.sub_0_r. split; [exact A|]. split; [reflexivity|]. split; [reflexivity|exact F].
  - rewrite A, (blit_fresh T xs r n L). eexists. split; [reflexivity|]. cbn [VecModel.blocks VecModel.drops]. rewrite Nat.eqb_refl. split; [reflexivity|]. split; [intros b X; apply Nat.eqb_neq in X; rewrite X; reflexivity|]. split; [reflexivity|].
    intros b X. cbn [VecModel.blocks VecModel.next] in *. destruct (Nat.eqb_spec b a) as [->|]; [rewrite (F a X) in A; discriminate A|apply F; exact X].
Qed.
Lemma dealloc_ok w a s n : blocks w a = Some s -> length s = n -> 0 < n -> fresh T w ->
  exists w', dealloc_array T w a n = Some w' /\ blocks w' a = None /\ (forall b, b <> a -> blocks w' b = blocks w b) /\ drops w' = drops w /\ fresh T w'.
Proof.
  intros A L P F. unfold dealloc_array. destruct (Nat.eqb_spec n 0); [lia|]. rewrite A, L, Nat.eqb_refl. eexists. split; [reflexivity|]. cbn [VecModel.blocks VecModel.drops]. rewrite Nat.eqb_refl. split; [reflexivity|].
  split; [intros b X; apply Nat.eqb_neq in X; rewrite X; reflexivity|]. split; [reflexivity|]. intros b X. cbn [VecModel.blocks VecModel.next] in *. destruct (b =? a); [reflexivity|]. apply F. exact X.
Qed.
(** the heap to heap move, shared by [grow] and [optimize] *)
Lemma rep_rehouse B D w v xs a r n : vd T v = UHeap a -> vl T v = length xs -> N < vc T v -> length xs + length r = vc T v -> blocks w a = Some (some xs ++ r) ->
  fresh T w -> B a = None -> (forall b, b <> a -> blocks w b = B b) -> drops w = D -> length xs <= n -> N < n ->
  exists w1 w2 w3, alloc_array T w n = (w1, S (next w)) /\ blocks w1 a = Some (some xs ++ r) /\ blit_to T w1 (some xs ++ r) (S (next w)) (length xs) = Some w2 /\
    dealloc_heap T w2 v = Some w3 /\ rep B D w3 (V (UHeap (S (next w))) (length xs) n) xs.
Proof.
  intros E L C S A F BA Q DD LN NN. assert (AN : a <> Datatypes.S (next w)) by (intros ->; rewrite (F (Datatypes.S (next w))) in A by lia; discriminate A).
  destruct (alloc_fresh w n ltac:(lia) F) as (w1 & E1 & F1 & A1 & O1 & D1). exists w1. rewrite E1.
  destruct (blit_to_fresh w1 xs r _ n A1 LN F1) as (w2 & E2 & A2 & O2 & D2 & F2). exists w2.
  assert (A3 : blocks w2 a = Some (some xs ++ r)) by (rewrite O2, O1 by assumption; exact A).
  destruct (dealloc_ok w2 a _ (vc T v) A3) as (w3 & E3 & A4 & O4 & D4 & F4); [rewrite app_length, map_length; exact S|lia|exact F2|]. exists w3.
  split; [reflexivity|]. split; [rewrite O1 by assumption; exact A|]. split; [exact E2|]. split; [unfold dealloc_heap; rewrite E; exact E3|].
  apply (RHeap _ _ _ _ _ (Datatypes.S (next w)) (repeat None (n - length xs))); cbn [vd vl vc]; try reflexivity.
  - exact NN.
  - rewrite repeat_length. lia.
  - rewrite O4 by congruence. exact A2.
  - exact F4.
  - rewrite <- Q by congruence. apply F. lia.
  - intros b X. destruct (Nat.eq_dec b a) as [->|NB]; [rewrite A4; symmetry; exact BA|]. rewrite O4, O2, O1 by assumption. apply Q. exact NB.
  - congruence.
Qed.
Lemma rep_grow B D w v xs : rep B D w v xs -> exists w' v', grow T N w v = Some (w', v') /\ rep B D w' v' xs /\ length xs < vc T v'.
Proof.
  intros R. unfold grow. rewrite (rep_len _ _ _ _ _ R). destruct (Nat.eqb_spec (length xs) (vc T v)) as [FU|NF].
  - destruct R as [r E L C S F Q DD|a r E L C S A F BA Q DD].
    + assert (ER : r = []) by (destruct r; [reflexivity|cbn in S; lia]). subst r. destruct (alloc_fresh w (vc T v * 2) ltac:(lia) F) as (w1 & -> & F1 & A1 & O1 & D1). rewrite (stack_yes v C), E.
      destruct (blit_to_fresh w1 xs [] _ _ A1 ltac:(lia) F1) as (w2 & -> & A2 & O2 & D2 & F2). eexists _, _. split; [reflexivity|]. split; [|cbn [vc]; lia].
      apply (RHeap _ _ _ _ _ (Datatypes.S (next w)) (repeat None (vc T v * 2 - length xs))); cbn [vd vl vc]; try reflexivity; try assumption; try lia.
      * rewrite repeat_length. lia.
      * rewrite <- Q. apply F. lia.
      * intros b X. rewrite O2, O1 by assumption. apply Q.
      * congruence.
    + destruct (rep_rehouse B D w v xs a r (vc T v * 2) E L C S A F BA Q DD ltac:(lia) ltac:(lia)) as (w1 & w2 & w3 & -> & A1 & B1 & D1 & R3). rewrite (stack_no v C), E.
      destruct (Nat.eqb_spec (length xs) 0); [lia|]. rewrite A1, B1, D1. eexists _, _. split; [reflexivity|]. split; [exact R3|]. cbn [vc]. lia.
  - eexists _, _. split; [reflexivity|]. split; [exact R|]. destruct R; lia.
Qed.
Lemma rep_push B D w v xs x : rep B D w v xs -> exists w' v', v_push T N w v x = Some (w', v') /\ rep B D w' v' (xs ++ [x]).
Proof. intros R. unfold v_push. destruct (rep_grow _ _ _ _ _ R) as (w1 & v1 & -> & R1 & L). apply rep_pushu; assumption. Qed.
Lemma rep_extend B D ys : forall w v xs, rep B D w v xs -> exists w' v', v_extend T N w v ys = Some (w', v') /\ rep B D w' v' (xs ++ ys).
Proof.
  induction ys as [|y ys IH]; intros w v xs R; [rewrite app_nil_r; exists w, v; split; [reflexivity|exact R]|]. cbn [v_extend]. destruct (rep_push _ _ _ _ _ y R) as (w1 & v1 & -> & R1).
  destruct (IH _ _ _ R1) as (w2 & v2 & -> & R2). exists w2, v2. split; [reflexivity|]. rewrite <- app_assoc in R2. exact R2.
Qed.
Lemma rep_remove B D w v xs i x : rep B D w v xs -> nth_error xs i = Some x -> exists w' v', remove_unchecked T N w v i = Some (w', v', x) /\ rep B D w' v' (without T i xs).
Proof.
  intros R E. unfold remove_unchecked. destruct (rep_at _ _ _ _ _ R) as (r & AT). rewrite AT, (rd_at T _ _ _ _ E), (rep_len _ _ _ _ _ R).
  assert (I : i < length xs) by (apply nth_error_Some; congruence). destruct (cpy_remove T xs r i I) as (o & r' & LR & C). rewrite C.
  assert (LW : length (without T i xs) = length xs - 1) by (unfold without; rewrite app_length, firstn_length, skipn_length; lia).
  destruct (rep_write B D w v xs (without T i xs) (some (without T i xs) ++ r') r' (vl T v - 1) R eq_refl) as (w' & E1 & R').
  - intros s Q. rewrite AT in Q. injection Q as <-. rewrite !app_length, !map_length, LW. cbn [length] in LR. lia.
  - rewrite (rep_len _ _ _ _ _ R). lia.
  - assert (VL : vl T (snd (v_set T w v (some (without T i xs) ++ r'))) = vl T v) by (unfold v_set; destruct (vd T v); reflexivity).
    destruct (v_set T w v (some (without T i xs) ++ r')) as (w1, v1) eqn:VS. cbn [fst snd] in *. eexists _, _. split; [reflexivity|]. rewrite VL. rewrite E1. exact R'.
Qed.
(** after [optimize]: inline exactly when the elements fit *)
Lemma rep_optimize B D w v xs : rep B D w v xs -> exists w' v', optimize T N w v = Some (w', v') /\ rep B D w' v' xs /\ (on_stack T N v' = true <-> (on_stack T N v = true \/ length xs <= N)).
Proof.
  intros R. unfold optimize. destruct R as [r E L C S F Q DD|a r E L C S A F BA Q DD].
  - rewrite (stack_yes v C). cbn [orb]. eexists _, _. split; [reflexivity|]. split; [apply (RStack _ _ _ _ _ r); assumption|]. rewrite (stack_yes v C). split; intros; [left|]; reflexivity.
  - rewrite (stack_no v C). cbn [orb]. rewrite L. destruct (Nat.eqb_spec (length xs) (vc T v)) as [FU|NF].
    + eexists _, _. split; [reflexivity|]. split; [apply (RHeap _ _ _ _ _ a r); assumption|]. rewrite (stack_no v C). split; [discriminate|]. intros [X|X]; [discriminate X|lia].
    + destruct (Nat.leb_spec (length xs) N) as [LE|GT].
      * unfold mv_to_stack. rewrite E, L. assert (HB : (if length xs =? 0 then Some [] else blocks w a) = Some (if length xs =? 0 then [] else some xs ++ r)) by (destruct (length xs =? 0); [reflexivity|exact A]). rewrite HB.
        assert (BL : blit T (if length xs =? 0 then [] else some xs ++ r) (repeat None N) (length xs) = Some (some xs ++ repeat None (N - length xs))).
        { destruct (Nat.eqb_spec (length xs) 0) as [Z|Z]; [|apply blit_fresh; exact LE]. destruct xs; [|discriminate Z]. exact (blit_fresh T [] [] N ltac:(cbn; lia)). }
        match goal with |- context [blit T ?h ?t ?n] => replace (blit T h t n) with (Some (some xs ++ repeat None (N - length xs))) by (symmetry; exact BL) end. unfold dealloc_heap. rewrite E. destruct (dealloc_ok w a _ (vc T v) A) as (w3 & -> & A4 & O4 & D4 & F4); [rewrite app_length, map_length; exact S|lia|exact F|].
        eexists _, _. split; [reflexivity|]. split; [|unfold on_stack; cbn [vc]; rewrite Nat.eqb_refl; split; [intros _; right; exact LE|reflexivity]].
        apply (RStack _ _ _ _ _ (repeat None (N - length xs))); cbn [vd vl vc]; try reflexivity; [rewrite repeat_length; lia|exact F4| |congruence].
        intros b. destruct (Nat.eq_dec b a) as [->|NB]; [rewrite A4; symmetry; exact BA|]. rewrite O4 by exact NB. apply Q. exact NB.
      * destruct (rep_rehouse B D w v xs a r (length xs) E L C S A F BA Q DD ltac:(lia) GT) as (w1 & w2 & w3 & -> & A1 & B1 & D1 & R3). rewrite E, A1, B1, D1. eexists _, _. split; [reflexivity|]. split; [exact R3|].
        rewrite (stack_no (V (UHeap (Datatypes.S (next w))) (length xs) (length xs))) by (cbn [vc]; exact GT). split; [discriminate|]. intros [X|X]; [discriminate X|lia].
Qed.
Lemma drop_world B D w v xs E w' : rep B D w v xs -> blocks w' = blocks w -> next w' = next w -> drops w' = E -> rep B E w' v xs.
Proof.
  intros R HB HN HD. assert (FR : fresh T w -> fresh T w') by (intros F b X; rewrite HB; apply F; lia). destruct R as [r E0 L C S F Q DD|a r E0 L C S A F BA Q DD].
  - apply (RStack _ _ _ _ _ r); try assumption; [apply FR; exact F|rewrite HB; exact Q].
  - apply (RHeap _ _ _ _ _ a r); try assumption; [rewrite HB; exact A|apply FR; exact F|rewrite HB; exact Q].
Qed.
Lemma rep_shorter B D w v xs ys zs : rep B D w v xs -> xs = ys ++ zs -> rep B D w (V (vd T v) (length ys) (vc T v)) ys.
Proof.
  intros R ->. destruct R as [r E L C S F Q DD|a r E L C S A F BA Q DD]; rewrite map_app, <- app_assoc in *; rewrite app_length in S.
  - apply (RStack _ _ _ _ _ (some zs ++ r)); cbn [vd vl vc]; try assumption; [reflexivity|rewrite app_length, map_length; lia].
  - apply (RHeap _ _ _ _ _ a (some zs ++ r)); cbn [vd vl vc]; try assumption; [reflexivity|rewrite app_length, map_length; lia].
Qed.
Lemma rep_clear B D w v xs : rep B D w v xs -> exists w' v', v_clear T N w v = Some (w', v') /\ rep B (D ++ xs) w' v' [].
Proof.
  intros R. unfold v_clear, drop_slice. destruct (rep_at _ _ _ _ _ R) as (r & ->). rewrite (rep_len _ _ _ _ _ R), sl_all. eexists _, _. split; [reflexivity|].
  apply (rep_shorter B (D ++ xs) _ v xs [] xs); [|reflexivity]. apply (drop_world B D w v xs); try reflexivity; [exact R|]. cbn [VecModel.drops]. destruct R; congruence.
Qed.
Lemma rep_drop B D w v xs : rep B D w v xs -> exists w', v_drop T N w v = Some w' /\ drops w' = D ++ xs /\ (forall b, blocks w' b = B b) /\ fresh T w'.
Proof.
  intros R. unfold v_drop, drop_slice. destruct (rep_at _ _ _ _ _ R) as (r0 & AT). rewrite AT, (rep_len _ _ _ _ _ R), sl_all. destruct R as [r E L C S F Q DD|a r E L C S A F BA Q DD].
  - rewrite (stack_yes v C). eexists. split; [reflexivity|]. cbn [VecModel.drops VecModel.blocks]. split; [congruence|]. split; [exact Q|]. intros b X. apply F. exact X.
  - rewrite (stack_no v C). unfold dealloc_heap. rewrite E.
    destruct (dealloc_ok (W T (blocks w) (next w) (drops w ++ xs)) a (some xs ++ r) (vc T v) A) as (w3 & -> & A4 & O4 & D4 & F4); [rewrite app_length, map_length; exact S|lia|intros b X; apply F; exact X|].
    eexists. split; [reflexivity|]. cbn [VecModel.drops VecModel.blocks] in *. split; [congruence|]. split; [|exact F4]. intros b. destruct (Nat.eq_dec b a) as [->|NB]; [rewrite A4; symmetry; exact BA|]. rewrite O4 by exact NB. apply Q. exact NB.
Qed.
Lemma rep_exec B D w v xs o : rep B D w v xs -> let '(ys, a, d) := l_exec T xs o in
  exists w' v', v_exec T N w v o = Some (w', v', a) /\ rep B (D ++ d) w' v' ys.
Proof.
  intros R. destruct o as [x|i|i| | | |ys]; cbn [l_exec v_exec].
  - rewrite app_nil_r. destruct (rep_push _ _ _ _ _ x R) as (w' & v' & -> & R'). eexists _, _. split; [reflexivity|exact R'].
  - rewrite (rep_len _ _ _ _ _ R). destruct (nth_error xs i) as [x|] eqn:E; rewrite app_nil_r.
    + assert (I : i < length xs) by (apply nth_error_Some; congruence). apply Nat.ltb_lt in I. rewrite I. cbn [negb]. destruct (rep_remove _ _ _ _ _ i x R E) as (w' & v' & -> & R'). eexists _, _. split; [reflexivity|exact R'].
    + apply nth_error_None in E. apply Nat.ltb_ge in E. rewrite E. eexists _, _. split; [reflexivity|exact R].
  - rewrite (rep_len _ _ _ _ _ R). destruct (nth_error xs i) as [x|] eqn:E; rewrite app_nil_r.
    + assert (I : i < length xs) by (apply nth_error_Some; congruence). apply Nat.ltb_lt in I. rewrite I. cbn [negb]. destruct (rep_remove _ _ _ _ _ i x R E) as (w1 & v1 & -> & R1). destruct (rep_optimize _ _ _ _ _ R1) as (w' & v' & -> & R' & _). eexists _, _. split; [reflexivity|exact R'].
    + apply nth_error_None in E. apply Nat.ltb_ge in E. rewrite E. eexists _, _. split; [reflexivity|exact R].
  - destruct (rep_clear _ _ _ _ _ R) as (w' & v' & -> & R'). eexists _, _. split; [reflexivity|exact R'].
  - rewrite app_nil_r. destruct (rep_optimize _ _ _ _ _ R) as (w' & v' & -> & R' & _). eexists _, _. split; [reflexivity|exact R'].
  - rewrite app_nil_r, (rep_slice _ _ _ _ _ R). eexists _, _. split; [reflexivity|exact R].
  - rewrite app_nil_r. destruct (rep_extend B D ys _ _ _ R) as (w' & v' & -> & R'). eexists _, _. split; [reflexivity|exact R'].
Qed.
Lemma rep_run os : forall B D w v xs, rep B D w v xs -> let '(ys, a, d) := l_run T xs os in
  exists w' v', v_run T N w v os = Some (w', v', a) /\ rep B (D ++ d) w' v' ys.
Proof.
  induction os as [|o os IH]; intros B D w v xs R; cbn [l_run v_run]; [rewrite app_nil_r; exists w, v; split; [reflexivity|exact R]|].
  pose proof (rep_exec B D w v xs o R) as S. destruct (l_exec T xs o) as ((x1, a), d). destruct S as (w1 & v1 & -> & R1). specialize (IH B (D ++ d) w1 v1 x1 R1).
  destruct (l_run T x1 os) as ((x2, b), e). destruct IH as (w2 & v2 & -> & R2). eexists _, _. split; [reflexivity|]. rewrite app_assoc. exact R2.
Qed.

(** ** Taking apart *)
Definition whole (t : vit T) (n : nat) : vin := V (vd T (iv T t)) n (vc T (iv T t)).
Inductive itrep (B : nat -> option slots) (D : list T) (w : world) (t : vit T) (a m c : list T) : Prop :=
| IR : rep B D w (whole t (length (a ++ m ++ c))) (a ++ m ++ c) -> vl T (iv T t) = 0 -> ii T t = length a -> il T t = length a + length m -> itrep B D w t a m c.
Lemma into_rep B D w v xs : rep B D w v xs -> itrep B D w (v_into T v) [] xs [].
Proof.
  intros R. constructor; try reflexivity; [|cbn; apply (rep_len _ _ _ _ _ R)]. cbn [app]. rewrite app_nil_r. unfold whole, v_into. cbn [iv vd vc]. rewrite <- (rep_len _ _ _ _ _ R). destruct v. exact R.
Qed.
Lemma itrep_at B D w t a m c : itrep B D w t a m c -> exists r, v_at T N w (iv T t) = Some (some (a ++ m ++ c) ++ r).
Proof. intros [R _ _ _]. destruct (rep_at _ _ _ _ _ R) as (r & E). exists r. exact E. Qed.
Lemma next_ok B D w t a m c : itrep B D w t a m c -> match m with
  | [] => it_next T N true w t = Some (t, None)
  | x :: m' => exists t', it_next T N true w t = Some (t', Some x) /\ itrep B D w t' (a ++ [x]) m' c end.
Proof.
  intros I. destruct (itrep_at _ _ _ _ _ _ _ I) as (r & AT). destruct I as [R L EI EL]. destruct m as [|x m]; unfold it_next; rewrite EI, EL.
  - cbn [length]. rewrite Nat.add_0_r, Nat.eqb_refl. reflexivity.
  - destruct (Nat.eqb_spec (length a) (length a + length (x :: m))) as [X|_]; [cbn in X; lia|]. rewrite AT. unfold read_cast. rewrite (rd_at T (a ++ (x :: m) ++ c) r (length a) x) by (cbn [app]; apply nth_mid).
    eexists. split; [reflexivity|]. constructor; cbn [iv il ii]; try assumption.
    + unfold whole in *. cbn [iv]. replace ((a ++ [x]) ++ m ++ c) with (a ++ (x :: m) ++ c) by (rewrite <- app_assoc; reflexivity). exact R.
    + rewrite app_length. cbn. lia.
    + rewrite app_length. cbn. lia.
Qed.
Lemma back_ok B D w t a m c : itrep B D w t a m c -> match rev m with
  | [] => it_back T N true w t = Some (t, None)
  | x :: m' => exists t', it_back T N true w t = Some (t', Some x) /\ itrep B D w t' a (rev m') (x :: c) end.
Proof.
  intros I. destruct (itrep_at _ _ _ _ _ _ _ I) as (r & AT). destruct I as [R L EI EL]. destruct (rev m) as [|x m'] eqn:RM; unfold it_back; rewrite EI, EL.
  - assert (m = []) by (rewrite <- (rev_involutive m), RM; reflexivity). subst m. cbn [length]. rewrite Nat.add_0_r, Nat.eqb_refl. reflexivity.
  - assert (EM : m = rev m' ++ [x]) by (rewrite <- (rev_involutive m), RM; reflexivity). assert (LM : length m = S (length (rev m'))) by (rewrite EM, app_length; cbn; lia).
    destruct (Nat.eqb_spec (length a) (length a + length m)) as [X|_]; [lia|]. rewrite AT. unfold read_cast.
    assert (EQ : a ++ m ++ c = (a ++ rev m') ++ x :: c) by (rewrite EM, <- !app_assoc; reflexivity).
    rewrite (rd_at T (a ++ m ++ c) r (length a + length m - 1) x) by (rewrite EQ; replace (length a + length m - 1) with (length (a ++ rev m')) by (rewrite app_length; lia); apply nth_mid).
    eexists. split; [reflexivity|]. constructor; cbn [iv il ii]; try assumption; try lia.
    unfold whole in *. cbn [iv]. replace (a ++ rev m' ++ x :: c) with (a ++ m ++ c) by (rewrite EQ, <- app_assoc; reflexivity). exact R.
Qed.
Lemma it_run_ok ds : forall B D w t a m c, itrep B D w t a m c -> exists t' a' c', it_run T N true w t ds = Some (t', snd (take T m ds)) /\ itrep B D w t' a' (fst (take T m ds)) c'.
Proof.
  induction ds as [|b ds IH]; intros B D w t a m c I; cbn [it_run take]; [exists t, a, c; split; [reflexivity|exact I]|]. destruct b.
  - pose proof (next_ok _ _ _ _ _ _ _ I) as S. destruct m as [|x m].
    + rewrite S. destruct (IH _ _ _ _ _ _ _ I) as (t' & a' & c' & -> & I'). destruct (take T [] ds) as (l, g). exists t', a', c'. split; [reflexivity|exact I'].
    + destruct S as (t1 & -> & I1). destruct (IH _ _ _ _ _ _ _ I1) as (t' & a' & c' & -> & I'). destruct (take T m ds) as (l, g). exists t', a', c'. split; [reflexivity|exact I'].
  - pose proof (back_ok _ _ _ _ _ _ _ I) as S. destruct (rev m) as [|x m'] eqn:RM.
    + rewrite S. assert (m = []) by (rewrite <- (rev_involutive m), RM; reflexivity). subst m. destruct (IH _ _ _ _ _ _ _ I) as (t' & a' & c' & -> & I'). destruct (take T [] ds) as (l, g). exists t', a', c'. split; [reflexivity|exact I'].
    + destruct S as (t1 & -> & I1). destruct (IH _ _ _ _ _ _ _ I1) as (t' & a' & c' & -> & I'). destruct (take T (rev m') ds) as (l, g). exists t', a', c'. split; [reflexivity|exact I'].
Qed.
Lemma it_drop_ok B D w t a m c : itrep B D w t a m c -> exists w', it_drop T N w t = Some w' /\ drops w' = D ++ m /\ (forall b, blocks w' b = B b) /\ fresh T w'.
Proof.
  intros I. destruct (itrep_at _ _ _ _ _ _ _ I) as (r & AT). destruct I as [R L EI EL]. unfold it_drop. rewrite EI, EL, AT.
  assert (EMPTY : forall E w', rep B E w' (whole t (length (a ++ m ++ c))) (a ++ m ++ c) -> rep B E w' (iv T t) []).
  { intros E w' R'. pose proof (rep_shorter _ _ _ _ _ [] (a ++ m ++ c) R' eq_refl) as R2. unfold whole in R2. cbn [vd vc length] in R2. rewrite <- L in R2. destruct (iv T t). exact R2. }
  destruct (Nat.ltb_spec (length a) (length a + length m)) as [LT|GE].
  - unfold drop_slice. replace (length a + length m - length a) with (length m) by lia. rewrite sl_mid.
    destruct (rep_drop B (D ++ m) (W T (blocks w) (next w) (drops w ++ m)) (iv T t) []) as (w' & E & DR & Q & F).
    + apply EMPTY. apply (drop_world B D w _ _ (D ++ m)) with (1 := R); try reflexivity. cbn [VecModel.drops]. destruct R; congruence.
    + rewrite E. exists w'. split; [reflexivity|]. rewrite app_nil_r in DR. split; [exact DR|]. split; [exact Q|exact F].
  - assert (m = []) by (destruct m; [reflexivity|cbn in GE; lia]). subst m. destruct (rep_drop B D w (iv T t) [] (EMPTY D w R)) as (w' & E & DR & Q & F). exists w'. split; [exact E|]. split; [exact DR|]. split; [exact Q|exact F].
Qed.

End PV.

(** ** UArray *)
Section PU.
Variable T : Type.
Notation some := (map (@Some T)).
Variable N : nat.
Definition urep (u : uarr T) (xs : list T) : Prop := ul T u = length xs /\ exists r, ua T u = some xs ++ r /\ length xs + length r = N.
Lemma u_new_rep : urep (u_new T N) [].
Proof. split; [reflexivity|]. exists (repeat None N). split; [reflexivity|]. cbn. apply repeat_length. Qed.
Lemma urep_slice u xs : urep u xs -> u_slice T u = Some xs.
Proof. intros (L & r & E & S). unfold u_slice. rewrite E, L. apply sl_all. Qed.
Lemma urep_remove u xs i x : urep u xs -> nth_error xs i = Some x -> exists u', u_remove_unchecked T u i = Some (u', x) /\ urep u' (without T i xs).
Proof.
  intros (L & r & E & S) H. unfold u_remove_unchecked. rewrite E, L, (rd_at T _ _ _ _ H). assert (I : i < length xs) by (apply nth_error_Some; congruence). destruct (cpy_remove T xs r i I) as (o & r' & LR & C). rewrite C.
  eexists. split; [reflexivity|]. assert (LW : length (without T i xs) = length xs - 1) by (unfold without; rewrite app_length, firstn_length, skipn_length; lia). split; [cbn; lia|]. exists r'. split; [reflexivity|]. cbn [length] in LR. lia.
Qed.
Lemma without_last (xs : list T) x : without T (length xs) (xs ++ [x]) = xs.
Proof. unfold without. rewrite firstn_app, Nat.sub_diag, firstn_all. cbn [firstn]. rewrite app_nil_r. rewrite skipn_all2 by (rewrite app_length; cbn; lia). apply app_nil_r. Qed.
Lemma u_exec_ok u xs o : urep u xs -> let '(ys, a, d) := u_list T N xs o in exists u', u_exec T N u o = Some (u', a, d) /\ urep u' ys.
Proof.
  intros R. pose proof R as (L & r & E & S). destruct o as [x|i| | |]; cbn [u_list u_exec].
  - rewrite L. destruct (Nat.ltb_spec (length xs) N) as [LT|GE].
    + destruct (Nat.eqb_spec (length xs) N); [lia|]. unfold u_push_unchecked. rewrite E, L. destruct r as [|o r]; [cbn in S; lia|]. rewrite wr_end. eexists. split; [reflexivity|]. split; [cbn; rewrite app_length; cbn; lia|]. exists r. split; [reflexivity|]. rewrite app_length. cbn in *. lia.
    + destruct (Nat.eqb_spec (length xs) N); [|lia]. eexists. split; [reflexivity|exact R].
  - rewrite L. destruct (nth_error xs i) as [x|] eqn:H.
    + assert (I : i < length xs) by (apply nth_error_Some; congruence). destruct (Nat.leb_spec (length xs) i); [lia|]. destruct (urep_remove u xs i x R H) as (u' & -> & R'). eexists. split; [reflexivity|exact R'].
    + apply nth_error_None in H. apply Nat.leb_le in H. rewrite H. eexists. split; [reflexivity|exact R].
  - rewrite L. destruct (rev xs) as [|x m] eqn:RX.
    + assert (xs = []) by (rewrite <- (rev_involutive xs), RX; reflexivity). subst xs. eexists. split; [reflexivity|exact R].
    + assert (EX : xs = rev m ++ [x]) by (rewrite <- (rev_involutive xs), RX; reflexivity). destruct (Nat.eqb_spec (length xs) 0) as [Z|Z]; [rewrite EX, app_length in Z; cbn in Z; lia|].
      assert (LX : length xs - 1 = length (rev m)) by (rewrite EX, app_length; cbn; lia). rewrite LX. destruct (urep_remove u xs (length (rev m)) x R) as (u' & -> & R'); [rewrite EX; apply nth_mid|]. eexists. split; [reflexivity|]. rewrite EX, without_last in R'. exact R'.
  - rewrite (urep_slice u xs R). eexists. split; [reflexivity|]. split; [reflexivity|]. exists (some xs ++ r). split; [exact E|]. cbn. rewrite app_length, map_length. exact S.
  - rewrite (urep_slice u xs R). eexists. split; [reflexivity|exact R].
Qed.
Lemma u_run_ok os : forall u xs, urep u xs -> let '(ys, a, d) := u_lists T N xs os in exists u', u_run T N u os = Some (u', a, d) /\ urep u' ys.
Proof.
  induction os as [|o os IH]; intros u xs R; cbn [u_lists u_run]; [exists u; split; [reflexivity|exact R]|]. pose proof (u_exec_ok u xs o R) as S. destruct (u_list T N xs o) as ((x1, a), d). destruct S as (u1 & -> & R1).
  specialize (IH u1 x1 R1). destruct (u_lists T N x1 os) as ((x2, b), e). destruct IH as (u2 & -> & R2). eexists. split; [reflexivity|exact R2].
Qed.
Lemma u_drop_ok u xs : urep u xs -> u_drop T u = Some xs.
Proof. intros R. unfold u_drop. rewrite (proj1 R). destruct (Nat.eqb_spec (length xs) 0) as [Z|Z]; [destruct xs; [reflexivity|discriminate Z]|apply urep_slice; exact R]. Qed.
Lemma u_from_ok xs : length xs <= N -> exists u, u_from_slice T N xs = Some u /\ urep u xs.
Proof.
  intros L. unfold u_from_slice. pose proof (blit_fresh T xs [] N L) as B. rewrite app_nil_r in B. rewrite B. eexists. split; [reflexivity|]. split; [reflexivity|]. eexists. split; [reflexivity|]. rewrite repeat_length. lia.
Qed.
Lemma u_from_long xs : N < length xs -> u_from_slice T N xs = None.
Proof. intros L. unfold u_from_slice, blit. rewrite map_length, repeat_length, Nat.leb_refl. apply Nat.leb_gt in L. rewrite L. reflexivity. Qed.
Definition uitrep (t : uit T) (a m c : list T) : Prop := urep (U T (ua T (ju T t)) (length (a ++ m ++ c))) (a ++ m ++ c) /\ ul T (ju T t) = 0 /\ ji T t = length a /\ jl T t = length a + length m.
Lemma u_into_rep u xs : urep u xs -> uitrep (u_into T u) [] xs [].
Proof. intros (L & R). unfold uitrep, u_into. cbn [ju jl ji app ua ul]. rewrite app_nil_r. split; [split; [reflexivity|exact R]|]. split; [reflexivity|]. split; [reflexivity|exact L]. Qed.
Lemma unext_ok t a m c : uitrep t a m c -> match m with
  | [] => uit_next T t = Some (t, None)
  | x :: m' => exists t', uit_next T t = Some (t', Some x) /\ uitrep t' (a ++ [x]) m' c end.
Proof.
  intros ((_ & r & E & S) & L & EI & EL). cbn [ua] in E. destruct m as [|x m]; unfold uit_next; rewrite EI, EL.
  - cbn [length]. rewrite Nat.add_0_r, Nat.eqb_refl. reflexivity.
  - destruct (Nat.eqb_spec (length a) (length a + length (x :: m))) as [X|_]; [cbn in X; lia|]. rewrite E. rewrite (rd_at T (a ++ (x :: m) ++ c) r (length a) x) by (cbn [app]; apply nth_mid).
    eexists. split; [reflexivity|]. unfold uitrep. cbn [ju jl ji]. replace ((a ++ [x]) ++ m ++ c) with (a ++ (x :: m) ++ c) by (rewrite <- app_assoc; reflexivity).
    split; [split; [reflexivity|exists r; split; assumption]|]. split; [exact L|]. rewrite app_length. cbn. lia.
Qed.
Lemma uback_ok t a m c : uitrep t a m c -> match rev m with
  | [] => uit_back T t = Some (t, None)
  | x :: m' => exists t', uit_back T t = Some (t', Some x) /\ uitrep t' a (rev m') (x :: c) end.
Proof.
  intros ((_ & r & E & S) & L & EI & EL). cbn [ua] in E. destruct (rev m) as [|x m'] eqn:RM; unfold uit_back; rewrite EI, EL.
  - assert (m = []) by (rewrite <- (rev_involutive m), RM; reflexivity). subst m. cbn [length]. rewrite Nat.add_0_r, Nat.eqb_refl. reflexivity.
  - assert (EM : m = rev m' ++ [x]) by (rewrite <- (rev_involutive m), RM; reflexivity). assert (LM : length m = Datatypes.S (length (rev m'))) by (rewrite EM, app_length; cbn; lia).
    destruct (Nat.eqb_spec (length a) (length a + length m)) as [X|_]; [lia|]. rewrite E.
    assert (EQ : a ++ m ++ c = (a ++ rev m') ++ x :: c) by (rewrite EM, <- !app_assoc; reflexivity).
    rewrite (rd_at T (a ++ m ++ c) r (length a + length m - 1) x) by (rewrite EQ; replace (length a + length m - 1) with (length (a ++ rev m')) by (rewrite app_length; lia); apply nth_mid).
    eexists. split; [reflexivity|]. unfold uitrep. cbn [ju jl ji]. replace (a ++ rev m' ++ x :: c) with (a ++ m ++ c) by (rewrite EQ, <- app_assoc; reflexivity).
    split; [split; [reflexivity|exists r; split; assumption]|]. split; [exact L|]. split; [reflexivity|lia].
Qed.
Lemma uit_run_ok ds : forall t a m c, uitrep t a m c -> exists t' a' c', uit_run T t ds = Some (t', snd (take T m ds)) /\ uitrep t' a' (fst (take T m ds)) c'.
Proof.
  induction ds as [|b ds IH]; intros t a m c I; cbn [uit_run take]; [exists t, a, c; split; [reflexivity|exact I]|]. destruct b.
  - pose proof (unext_ok _ _ _ _ I) as S. destruct m as [|x m].
    + rewrite S. destruct (IH _ _ _ _ I) as (t' & a' & c' & -> & I'). destruct (take T [] ds) as (l, g). exists t', a', c'. split; [reflexivity|exact I'].
    + destruct S as (t1 & -> & I1). destruct (IH _ _ _ _ I1) as (t' & a' & c' & -> & I'). destruct (take T m ds) as (l, g). exists t', a', c'. split; [reflexivity|exact I'].
  - pose proof (uback_ok _ _ _ _ I) as S. destruct (rev m) as [|x m'] eqn:RM.
    + rewrite S. assert (m = []) by (rewrite <- (rev_involutive m), RM; reflexivity). subst m. destruct (IH _ _ _ _ I) as (t' & a' & c' & -> & I'). destruct (take T [] ds) as (l, g). exists t', a', c'. split; [reflexivity|exact I'].
    + destruct S as (t1 & -> & I1). destruct (IH _ _ _ _ I1) as (t' & a' & c' & -> & I'). destruct (take T (rev m') ds) as (l, g). exists t', a', c'. split; [reflexivity|exact I'].
Qed.
Lemma uit_drop_ok t a m c : uitrep t a m c -> uit_drop T t = Some m.
Proof.
  intros ((_ & r & E & S) & L & EI & EL). cbn [ua] in E. unfold uit_drop, u_drop. rewrite EI, EL, L, E. cbn [Nat.eqb]. destruct (Nat.ltb_spec (length a) (length a + length m)) as [LT|GE].
  - replace (length a + length m - length a) with (length m) by lia. rewrite sl_mid. cbn [option_map]. rewrite app_nil_r. reflexivity.
  - assert (m = []) by (destruct m; [reflexivity|cbn in GE; lia]). subst m. reflexivity.
Qed.
End PU.

(** ** Counting: nothing is lost or doubled (about the lists alone) *)
Section Count.
Variable T : Type.
Lemma without_perm i (xs : list T) x : nth_error xs i = Some x -> Permutation xs (x :: without T i xs).
Proof.
  intros E. apply nth_error_split in E. destruct E as (l1 & l2 & -> & <-). unfold without. rewrite firstn_app, Nat.sub_diag, firstn_all. cbn [firstn]. rewrite app_nil_r.
  replace (skipn (S (length l1)) (l1 ++ x :: l2)) with l2; [apply Permutation_sym, Permutation_middle|]. rewrite skipn_app. replace (S (length l1) - length l1) with 1 by lia. rewrite skipn_all2 by lia. reflexivity.
Qed.
Lemma l_exec_count xs o : let '(ys, a, d) := l_exec T xs o in Permutation (xs ++ put_in T o) (given T a ++ d ++ ys).
Proof.
  destruct o as [x|i|i| | | |zs]; cbn [l_exec put_in]; try (cbn [given app]; rewrite ?app_nil_r; apply Permutation_refl).
  - destruct (nth_error xs i) as [x|] eqn:E; cbn [given app]; rewrite app_nil_r; [apply without_perm; exact E|apply Permutation_refl].
  - destruct (nth_error xs i) as [x|] eqn:E; cbn [given app]; rewrite app_nil_r; [apply without_perm; exact E|apply Permutation_refl].
Qed.
Lemma l_run_count os : forall xs, let '(ys, a, d) := l_run T xs os in Permutation (xs ++ flat_map (put_in T) os) (flat_map (given T) a ++ d ++ ys).
Proof.
  induction os as [|o os IH]; intros xs; cbn [l_run flat_map]; [rewrite app_nil_r; apply Permutation_refl|]. pose proof (l_exec_count xs o) as S. destruct (l_exec T xs o) as ((x1, a), d). specialize (IH x1). destruct (l_run T x1 os) as ((x2, b), e).
  cbn [flat_map]. rewrite app_assoc. etransitivity; [apply Permutation_app_tail; exact S|]. rewrite <- !app_assoc. apply Permutation_app_head. etransitivity; [apply Permutation_app_head; exact IH|].
  rewrite !app_assoc. apply Permutation_app_tail. apply Permutation_app_tail. apply Permutation_app_comm.
Qed.
Lemma u_list_count N xs o : let '(ys, a, d) := u_list T N xs o in Permutation (xs ++ u_put_in T o) (u_given T a ++ d ++ ys).
Proof.
  destruct o as [x|i| | |]; cbn [u_list u_put_in]; try (cbn [u_given app]; rewrite ?app_nil_r; apply Permutation_refl).
  - destruct (length xs <? N); cbn [u_given app]; [apply Permutation_refl|]. apply Permutation_sym, Permutation_cons_append.
  - destruct (nth_error xs i) as [x|] eqn:E; cbn [u_given app]; rewrite app_nil_r; [apply without_perm; exact E|apply Permutation_refl].
  - destruct (rev xs) as [|x m] eqn:RX; cbn [u_given app]; rewrite app_nil_r; [apply Permutation_refl|]. rewrite <- (rev_involutive xs), RX. cbn [rev]. apply Permutation_sym, Permutation_cons_append.
Qed.
Lemma u_lists_count N os : forall xs, let '(ys, a, d) := u_lists T N xs os in Permutation (xs ++ flat_map (u_put_in T) os) (flat_map (u_given T) a ++ d ++ ys).
Proof.
  induction os as [|o os IH]; intros xs; cbn [u_lists flat_map]; [rewrite app_nil_r; apply Permutation_refl|]. pose proof (u_list_count N xs o) as S. destruct (u_list T N xs o) as ((x1, a), d). specialize (IH x1). destruct (u_lists T N x1 os) as ((x2, b), e).
  cbn [flat_map]. rewrite app_assoc. etransitivity; [apply Permutation_app_tail; exact S|]. rewrite <- !app_assoc. apply Permutation_app_head. etransitivity; [apply Permutation_app_head; exact IH|].
  rewrite !app_assoc. apply Permutation_app_tail. apply Permutation_app_tail. apply Permutation_app_comm.
Qed.
Lemma take_count ds : forall xs, Permutation xs (somes T (snd (take T xs ds)) ++ fst (take T xs ds)).
Proof.
  induction ds as [|b ds IH]; intros xs; [apply Permutation_refl|]. destruct b; cbn [take].
  - destruct xs as [|x xs]; [specialize (IH []); destruct (take T [] ds) as (l, g); exact IH|]. specialize (IH xs). destruct (take T xs ds) as (l, g). cbn [fst snd somes flat_map app] in *. constructor. exact IH.
  - destruct (rev xs) as [|x m] eqn:RX; [assert (xs = []) by (rewrite <- (rev_involutive xs), RX; reflexivity); subst xs; specialize (IH []); destruct (take T [] ds) as (l, g); exact IH|].
    specialize (IH (rev m)). destruct (take T (rev m) ds) as (l, g). cbn [fst snd somes flat_map app] in *. rewrite <- (rev_involutive xs), RX. cbn [rev]. etransitivity; [apply Permutation_sym, Permutation_cons_append|]. constructor. exact IH.
Qed.
End Count.
