(** C102: fixed vectors behave as bounded lists and give back their memory. *)
From Coq Require Import List Arith Bool Lia Permutation.
From Verif Require Import VecModel VecSpec VecProofs FixedModel.
Import ListNotations.

(** ** Specification: a list of bounded length *)
Section Spec.
Variable T : Type.
Variable CAP : nat.
(** the list, the answer, what is destroyed; [None]: not allowed *)
Definition b_exec (xs : list T) (o : fop T) : option (list T * fout T * list T) :=
  match o with
  | FTry _ x => Some (if length xs <? CAP then (xs ++ [x], AUnit T, []) else (xs, ABack T x, []))
  | FTryPush _ x => Some (if length xs <? CAP then (xs ++ [x], AUnit T, []) else (xs, APanic T, [x]))
  | FPush _ x => if length xs <? CAP then Some (xs ++ [x], AUnit T, []) else None
  | FExtend _ ys => if length (xs ++ ys) <=? CAP then Some (xs ++ ys, AUnit T, []) else None
  | FClear _ => Some ([], AUnit T, xs)
  | FClearStart _ n => if n <=? length xs then Some (skipn n xs, AUnit T, firstn n xs) else None
  | FSlice _ => Some (xs, ASlice T xs, [])
  end.
Fixpoint b_run (xs : list T) (os : list (fop T)) : option (list T * list (fout T) * list T) :=
  match os with
  | [] => Some (xs, [], [])
  | o :: r => match b_exec xs o with
              | Some (x1, a, d) => match b_run x1 r with Some (x2, b, e) => Some (x2, a :: b, d ++ e) | None => None end
              | None => None
              end
  end.
Definition f_put_in (o : fop T) : list T := match o with FTry _ x | FTryPush _ x | FPush _ x => [x] | FExtend _ xs => xs | _ => [] end.
Definition f_given (a : fout T) : list T := match a with ABack _ x => [x] | _ => [] end.
End Spec.

(** ** Proofs *)
Section P.
Variable T : Type.
Variable CAP : nat.
Notation some := (map (@Some T)).
(** the vector holds [xs]; other blocks are as in [B] *)
Record frep (B : nat -> option (slots T)) (D : list T) (w : world T) (v : fvec) (xs : list T) : Prop := {
  r_len : fl v = length xs;
  r_blk : exists r, blocks T w (fp v) = Some (some xs ++ r) /\ length xs + length r = CAP;
  r_oth : forall b, b <> fp v -> blocks T w b = B b;
  r_drop : drops T w = D }.
Lemma wr_none (xs : list T) x : wr T (some xs) (length xs) x = None.
Proof. induction xs as [|y xs IH]; [reflexivity|]. cbn. rewrite IH. reflexivity. Qed.
Lemma set_at w v s : blocks T (f_set T w v s) (fp v) = Some s.
Proof. unfold f_set. cbn [blocks]. now rewrite Nat.eqb_refl. Qed.
Lemma set_other w v s b : b <> fp v -> blocks T (f_set T w v s) b = blocks T w b.
Proof. intros D. unfold f_set. cbn [blocks]. apply Nat.eqb_neq in D. now rewrite D. Qed.

Lemma frep_push B D w v xs x : frep B D w v xs ->
  if length xs <? CAP then exists w' v', f_push T w v x = Some (w', v') /\ frep B D w' v' (xs ++ [x]) /\ fp v' = fp v else f_push T w v x = None.
Proof.
  intros [L (r & E & C) O DR]. unfold f_push. rewrite E, L. destruct (Nat.ltb_spec (length xs) CAP) as [Lt|Ge].
  - destruct r as [|o r]; [cbn [length] in C; lia|]. rewrite wr_end. eexists _, _. split; [reflexivity|]. split; [|reflexivity].
    constructor; cbn [fl fp].
    + rewrite app_length. reflexivity.
    + exists r. split; [change (fp v) with (fp (F (fp v) (length xs + 1))); apply (set_at w v)|]. rewrite app_length. cbn [length] in *. lia.
    + intros b X. rewrite set_other by exact X. now apply O.
    + exact DR.
  - destruct r as [|o r]; [|cbn [length] in C; lia]. rewrite app_nil_r, wr_none. reflexivity.
Qed.
Lemma frep_extend B D w v xs ys : frep B D w v xs ->
  if length (xs ++ ys) <=? CAP then exists w' v', f_extend T w v ys = Some (w', v') /\ frep B D w' v' (xs ++ ys) /\ fp v' = fp v else f_extend T w v ys = None.
Proof.
  intros [L (r & E & C) O DR]. unfold f_extend. rewrite E, L. unfold put. rewrite !app_length, map_length, C.
  destruct (Nat.leb_spec (length xs + length ys) CAP) as [Le|Gt]; [|reflexivity].
  eexists _, _. split; [reflexivity|]. split; [|reflexivity]. constructor; cbn [fl fp].
  - now rewrite app_length.
  - exists (skipn (length ys) r). split.
    + rewrite (set_at w v). f_equal. rewrite map_app, <- app_assoc. f_equal.
      * rewrite firstn_app, map_length, Nat.sub_diag. cbn [firstn]. rewrite app_nil_r. rewrite <- (map_length Some xs) at 1. apply firstn_all.
      * f_equal. rewrite skipn_app, map_length. rewrite skipn_all2 by (rewrite map_length; lia). cbn [app]. f_equal. lia.
    + rewrite app_length, skipn_length. lia.
  - intros b X. rewrite set_other by exact X. now apply O.
  - exact DR.
Qed.
Lemma frep_slice B D w v xs : frep B D w v xs -> f_slice T w v = Some xs.
Proof. intros [L (r & E & C) O DR]. unfold f_slice. rewrite E, L. apply sl_all. Qed.
Lemma frep_clear B D w v xs : frep B D w v xs ->
  exists w' v', f_clear T w v = Some (w', v') /\ frep B (D ++ xs) w' v' [] /\ fp v' = fp v /\ blocks T w' = blocks T w.
Proof.
  intros [L (r & E & C) O DR]. unfold f_clear, drop_slice. rewrite E, L, sl_all. eexists _, _. split; [reflexivity|]. split; [|split; reflexivity].
  constructor; cbn [fl fp blocks drops]; [reflexivity| |exact O|now rewrite DR].
  exists (some xs ++ r). split; [exact E|]. rewrite app_length, map_length. cbn [length]. lia.
Qed.
Lemma frep_clear_start B D w v xs n : frep B D w v xs ->
  if n <=? length xs then exists w' v', f_clear_start T w v n = Some (w', v') /\ frep B (D ++ firstn n xs) w' v' (skipn n xs) /\ fp v' = fp v
  else f_clear_start T w v n = None.
Proof.
  intros [L (r & E & C) O DR]. unfold f_clear_start, drop_slice. rewrite E, L. destruct (Nat.leb_spec n (length xs)) as [Le|Gt].
  - assert (SLI : sl T (some xs ++ r) 0 n = Some (firstn n xs)).
    { pose proof (sl_mid T [] (firstn n xs) (skipn n xs) r) as X. cbn [app length] in X. rewrite firstn_skipn, firstn_length, Nat.min_l in X by exact Le. exact X. }
    rewrite SLI. unfold cpy. rewrite app_length, map_length, C.
    assert (C1 : n + (length xs - n) <=? CAP = true) by (apply Nat.leb_le; lia).
    assert (C2 : 0 + (length xs - n) <=? CAP = true) by (apply Nat.leb_le; lia). rewrite C1, C2. cbn [andb].
    eexists _, _. split; [reflexivity|]. split; [|reflexivity]. constructor; cbn [fl fp].
    + now rewrite skipn_length.
    + exists (skipn (length xs - n) (some xs ++ r)). split.
      * match goal with |- context [f_set T ?w' v ?s] => rewrite (set_at w' v s) end. f_equal. cbn [firstn app]. cbn [Nat.add]. f_equal.
        rewrite skipn_app, map_length. replace (n - length xs) with 0 by lia. cbn [skipn]. rewrite firstn_app, skipn_length, map_length, Nat.sub_diag. cbn [firstn].
        rewrite app_nil_r, firstn_all2 by (rewrite skipn_length, map_length; lia). apply skipn_map.
      * rewrite !skipn_length, app_length, map_length. lia.
    + intros b X. rewrite set_other by exact X. cbn [blocks]. now apply O.
    + unfold f_set. cbn [drops]. now rewrite DR.
  - destruct (sl T (some xs ++ r) 0 n); reflexivity.
Qed.
Lemma frep_exec B D w v xs o : frep B D w v xs ->
  match b_exec T CAP xs o with
  | Some (ys, a, d) => exists w' v', f_exec T CAP w v o = Some (w', v', a) /\ frep B (D ++ d) w' v' ys /\ fp v' = fp v
  | None => f_exec T CAP w v o = None
  end.
Proof.
  intros R. assert (RM : f_remaining CAP v =? 0 = negb (length xs <? CAP)).
  { unfold f_remaining. rewrite (r_len _ _ _ _ _ R). destruct (Nat.ltb_spec (length xs) CAP); [apply Nat.eqb_neq|apply Nat.eqb_eq]; lia. }
  destruct o as [x|x|x|ys| |n|]; cbn [b_exec f_exec]; rewrite ?RM.
  - pose proof (frep_push _ _ _ _ _ x R) as H. destruct (length xs <? CAP); cbn [negb].
    + destruct H as (w' & v' & -> & R' & E). exists w', v'. rewrite app_nil_r. auto.
    + exists w, v. rewrite app_nil_r. auto.
  - pose proof (frep_push _ _ _ _ _ x R) as H. destruct (length xs <? CAP); cbn [negb].
    + destruct H as (w' & v' & -> & R' & E). exists w', v'. rewrite app_nil_r. auto.
    + eexists _, v. split; [reflexivity|]. split; [|reflexivity]. destruct R as [L Bk O DR]. constructor; cbn [blocks drops]; [exact L|exact Bk|exact O|now rewrite DR].
  - pose proof (frep_push _ _ _ _ _ x R) as H. destruct (length xs <? CAP).
    + destruct H as (w' & v' & -> & R' & E). exists w', v'. rewrite app_nil_r. auto.
    + now rewrite H.
  - pose proof (frep_extend _ _ _ _ _ ys R) as H. destruct (length (xs ++ ys) <=? CAP).
    + destruct H as (w' & v' & -> & R' & E). exists w', v'. rewrite app_nil_r. auto.
    + now rewrite H.
  - destruct (frep_clear _ _ _ _ _ R) as (w' & v' & -> & R' & E & _). exists w', v'. auto.
  - pose proof (frep_clear_start _ _ _ _ _ n R) as H. destruct (n <=? length xs).
    + destruct H as (w' & v' & -> & R' & E). exists w', v'. auto.
    + now rewrite H.
  - rewrite (frep_slice _ _ _ _ _ R). exists w, v. rewrite app_nil_r. auto.
Qed.
Lemma frep_run B os : forall D w v xs, frep B D w v xs ->
  match b_run T CAP xs os with
  | Some (ys, a, d) => exists w' v', f_run T CAP w v os = Some (w', v', a) /\ frep B (D ++ d) w' v' ys /\ fp v' = fp v
  | None => f_run T CAP w v os = None
  end.
Proof.
  induction os as [|o os IH]; intros D w v xs R; cbn [b_run f_run]; [exists w, v; rewrite app_nil_r; auto|].
  pose proof (frep_exec _ _ _ _ _ o R) as H. destruct (b_exec T CAP xs o) as [((x1, a), d)|]; [|now rewrite H].
  destruct H as (w1 & v1 & -> & R1 & E1). specialize (IH _ _ _ _ R1). destruct (b_run T CAP x1 os) as [((x2, b), e)|].
  - destruct IH as (w2 & v2 & -> & R2 & E2). exists w2, v2. rewrite app_assoc. split; [reflexivity|]. split; [exact R2|congruence].
  - now rewrite IH.
Qed.
Lemma frep_new w : 0 < CAP -> frep (blocks T w) (drops T w) (fst (f_allocate T CAP w)) (snd (f_allocate T CAP w)) [] /\ fp (snd (f_allocate T CAP w)) = S (next T w).
Proof.
  intros CAP1. unfold f_allocate, alloc_array. assert (Z : CAP =? 0 = false) by (apply Nat.eqb_neq; lia). rewrite Z. cbn [fst snd fp]. split; [|reflexivity].
  constructor; cbn [fl fp blocks drops]; [reflexivity| | |reflexivity].
  - exists (repeat None CAP). rewrite Nat.eqb_refl. split; [reflexivity|]. apply repeat_length.
  - intros b X. apply Nat.eqb_neq in X. now rewrite X.
Qed.
(** what dropping it does: the elements are destroyed, no block changes *)
Lemma frep_end B D w v xs : frep B D w v xs -> exists w', f_drop T w v = Some w' /\ drops T w' = D ++ xs /\ blocks T w' = blocks T w.
Proof.
  intros R. unfold f_drop. destruct (frep_clear _ _ _ _ _ R) as (w' & v' & -> & R' & _ & BL). rewrite (r_len _ _ _ _ _ R'). cbn [length].
  unfold dealloc_array. cbn [Nat.eqb]. exists w'. split; [reflexivity|]. split; [apply (r_drop _ _ _ _ _ R')|exact BL].
Qed.
End P.

(** ** C102 *)
(** Every history from a new vector, whatever capacity and type: it is defined exactly when the list allows it; then the answers, the contents and the
    elements destroyed are those of the list, and no other block of memory is touched. *)
Theorem C102_list_exact : forall T CAP (w : world T) (os : list (fop T)), 0 < CAP ->
  let (w0, v0) := f_allocate T CAP w in
  match b_run T CAP [] os with
  | Some (xs, answers, destroyed) =>
      exists w1 v1, f_run T CAP w0 v0 os = Some (w1, v1, answers) /\ f_slice T w1 v1 = Some xs /\ length xs <= CAP /\
        drops T w1 = drops T w ++ destroyed /\ forall b, b <> S (next T w) -> blocks T w1 b = blocks T w b
  | None => f_run T CAP w0 v0 os = None
  end.
Proof.
  intros T CAP w os C1. destruct (frep_new T CAP w C1) as [R A]. destruct (f_allocate T CAP w) as [w0 v0]. cbn [fst snd] in *.
  pose proof (frep_run T CAP (blocks T w) os _ _ _ _ R) as H. destruct (b_run T CAP [] os) as [((xs, a), d)|]; [|exact H].
  destruct H as (w1 & v1 & E & R1 & P). exists w1, v1. split; [exact E|]. split; [apply (frep_slice T CAP _ _ _ _ _ R1)|].
  destruct R1 as [L (r & _ & LN) O DR]. split; [lia|]. split; [exact DR|]. intros b X. apply O. congruence.
Qed.
Definition hist : list (fop nat) := [FTry nat 1; FExtend nat [2; 3]; FTry nat 4; FTryPush nat 5; FClearStart nat 2; FSlice nat; FPush nat 6; FClear nat; FPush nat 7].
Example C102_list_example : b_run nat 3 [] hist = Some ([7], [AUnit nat; AUnit nat; ABack nat 4; APanic nat; AUnit nat; ASlice nat [3]; AUnit nat; AUnit nat; AUnit nat], [5; 1; 2; 3; 6]).
Proof. reflexivity. Qed.

(** Every element that was put in is handed back or destroyed, once. *)
Theorem C102_elements : forall T CAP (w : world T) (os : list (fop T)) w1 v1 answers, 0 < CAP ->
  let (w0, v0) := f_allocate T CAP w in
  f_run T CAP w0 v0 os = Some (w1, v1, answers) ->
  exists w2 gone, f_drop T w1 v1 = Some w2 /\ drops T w2 = drops T w ++ gone /\ Permutation (flat_map (f_put_in T) os) (flat_map (f_given T) answers ++ gone).
Proof.
  intros T CAP w os w1 v1 answers C1. destruct (frep_new T CAP w C1) as [R _]. destruct (f_allocate T CAP w) as [w0 v0]. cbn [fst snd] in *. intros E.
  pose proof (frep_run T CAP (blocks T w) os _ _ _ _ R) as H.
  assert (CNT : forall os xs ys a d, b_run T CAP xs os = Some (ys, a, d) -> Permutation (xs ++ flat_map (f_put_in T) os) (flat_map (f_given T) a ++ d ++ ys)).
  { clear. induction os as [|o os IH]; intros xs ys a d E; cbn [b_run] in E; [injection E as <- <- <-; cbn; now rewrite app_nil_r|].
    destruct (b_exec T CAP xs o) as [((x1, a1), d1)|] eqn:X; [|discriminate E]. destruct (b_run T CAP x1 os) as [((x2, a2), d2)|] eqn:Y; [|discriminate E].
    injection E as <- <- <-. specialize (IH _ _ _ _ Y). cbn [flat_map].
    assert (ST : Permutation (xs ++ f_put_in T o) (f_given T a1 ++ d1 ++ x1)).
    { destruct o as [x|x|x|zs| |n|]; cbn [b_exec] in X; cbn [f_put_in].
      - destruct (length xs <? CAP); injection X as <- <- <-; cbn [f_given app]; [reflexivity|apply Permutation_app_comm].
      - destruct (length xs <? CAP); injection X as <- <- <-; cbn [f_given app]; [reflexivity|apply Permutation_app_comm].
      - destruct (length xs <? CAP); [|discriminate X]. injection X as <- <- <-. reflexivity.
      - destruct (length (xs ++ zs) <=? CAP); [|discriminate X]. injection X as <- <- <-. reflexivity.
      - injection X as <- <- <-. reflexivity.
      - destruct (n <=? length xs); [|discriminate X]. injection X as <- <- <-. cbn [f_given app]. now rewrite firstn_skipn, app_nil_r.
      - injection X as <- <- <-. cbn [f_given app]. now rewrite app_nil_r. }
    rewrite app_assoc, ST, <- !app_assoc. apply Permutation_app_head. rewrite IH. rewrite !app_assoc. apply Permutation_app_tail. apply Permutation_app_tail.
    apply Permutation_app_comm. }
  destruct (b_run T CAP [] os) as [((xs, a), d)|] eqn:Q; [|congruence]. destruct H as (w1' & v1' & E' & R1 & _).
  assert (X : w1' = w1 /\ v1' = v1 /\ a = answers) by (split; [|split]; congruence). destruct X as (-> & -> & ->).
  destruct (frep_end T CAP _ _ _ _ _ R1) as (w2 & E2 & D2 & _). exists w2, (d ++ xs). split; [exact E2|]. split; [now rewrite D2, app_assoc|].
  exact (CNT os [] xs answers d Q).
Qed.

(** The block is never given back: after every history the vector's drop leaves it allocated, with its full size, and there is no pointer to it any more. *)
Theorem C102_leak : forall T CAP (w : world T) (os : list (fop T)) w1 v1 answers, 0 < CAP ->
  let (w0, v0) := f_allocate T CAP w in
  f_run T CAP w0 v0 os = Some (w1, v1, answers) ->
  exists w2 s, f_drop T w1 v1 = Some w2 /\ blocks T w2 (S (next T w)) = Some s /\ length s = CAP.
Proof.
  intros T CAP w os w1 v1 answers C1. destruct (frep_new T CAP w C1) as [R A]. destruct (f_allocate T CAP w) as [w0 v0]. cbn [fst snd] in *. intros E.
  pose proof (frep_run T CAP (blocks T w) os _ _ _ _ R) as H. destruct (b_run T CAP [] os) as [((xs, a), d)|]; [|congruence].
  destruct H as (w1' & v1' & E' & R1 & P). assert (X : w1' = w1 /\ v1' = v1) by (split; congruence). destruct X as (-> & ->).
  destruct (frep_end T CAP _ _ _ _ _ R1) as (w2 & E2 & _ & B2). destruct R1 as [_ (r & BK & LN) _ _].
  exists w2, (map Some xs ++ r). split; [exact E2|]. split; [rewrite B2, <- A, <- P; exact BK|]. rewrite app_length, map_length. exact LN.
Qed.
(** the statement about memory: every vector's block is free after its drop *)
Definition w_empty : world nat := W nat (fun _ => None) 0 [].
Theorem C102_freed_refuted : exists os w1 v1 answers w2 a, (let (w0, v0) := f_allocate nat 8 w_empty in f_run nat 8 w0 v0 os) = Some (w1, v1, answers) /\
  f_drop nat w1 v1 = Some w2 /\ blocks nat w_empty a = None /\ blocks nat w2 a <> None.
Proof.
  pose (os := [FExtend nat [1; 2]; FClearStart nat 1]).
  destruct (let (w0, v0) := f_allocate nat 8 w_empty in f_run nat 8 w0 v0 os) as [((w1, v1), an)|] eqn:E; [|vm_compute in E; discriminate E].
  exists os, w1, v1, an. pose proof (C102_leak nat 8 w_empty os w1 v1 an ltac:(lia)) as H. destruct (f_allocate nat 8 w_empty) as [w0 v0].
  destruct (H E) as (w2 & s & D & B & _). exists w2, 1. split; [exact E|]. split; [exact D|]. split; [reflexivity|].
  change (S (next nat w_empty)) with 1 in B. rewrite B. discriminate.
Qed.
(** with the capacity in place of the length (138) it would be freed *)
Example C102_capacity_example : forall T CAP (w : world T), 0 < CAP ->
  let (w0, v0) := f_allocate T CAP w in option_map (fun w1 => blocks T w1 (S (next T w))) (dealloc_array T w0 (fp v0) CAP) = Some None.
Proof.
  intros T CAP w C. unfold f_allocate, alloc_array, dealloc_array. assert (Z : CAP =? 0 = false) by (apply Nat.eqb_neq; lia). rewrite !Z. cbn [fp blocks].
  rewrite Nat.eqb_refl, repeat_length, Nat.eqb_refl. cbn [option_map blocks]. now rewrite Nat.eqb_refl.
Qed.

Print Assumptions C102_list_exact.
Print Assumptions C102_elements.
Print Assumptions C102_leak.
Print Assumptions C102_freed_refuted.
