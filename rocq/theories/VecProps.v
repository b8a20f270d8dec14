(** C90: the small vectors are lists and own their memory exactly. *)
From Coq Require Import List Arith Bool Lia Permutation.
From Verif Require Import VecModel VecSpec VecProofs.
Import ListNotations.

(** ** VInline *)
(** Every sequence of operations on a new vector runs without undefined behaviour and answers as the list does. When
    the vector is dropped at the end, exactly the elements that the list says were destroyed, and those left in it, have
    been destroyed, in order; and the memory has exactly the blocks it had before, so every block was freed, once,
    with its size. *)
Theorem C90_vinline_partial : forall T N (w : world T) (os : list (vop T)), 0 < N -> fresh T w ->
  let '(xs, answers, destroyed) := l_run T [] os in
  exists w1 v1 w2, v_run T N w (v_new T N) os = Some (w1, v1, answers) /\ v_slice T N w1 v1 = Some xs /\
    v_drop T N w1 v1 = Some w2 /\ drops T w2 = drops T w ++ destroyed ++ xs /\ forall a, blocks T w2 a = blocks T w a.
Proof.
  intros T N w os N1 F. pose proof (rep_run T N N1 os (blocks T w) (drops T w) w (v_new T N) [] (rep_new T N (blocks T w) w F (fun _ => eq_refl))) as R.
  destruct (l_run T [] os) as ((xs, a), d). destruct R as (w1 & v1 & E & R). destruct (rep_drop T N N1 _ _ _ _ _ R) as (w2 & E2 & D & B & _).
  exists w1, v1, w2. split; [exact E|]. split; [apply (rep_slice T N N1 _ _ _ _ _ R)|]. split; [exact E2|]. split; [rewrite D, <- app_assoc; reflexivity|exact B].
Qed.
(** Every element that was put in is given out or destroyed, exactly once. *)
Theorem C90_elements : forall T N (w : world T) (os : list (vop T)), 0 < N -> fresh T w ->
  exists w1 v1 answers w2 gone, v_run T N w (v_new T N) os = Some (w1, v1, answers) /\ v_drop T N w1 v1 = Some w2 /\
    drops T w2 = drops T w ++ gone /\ Permutation (flat_map (put_in T) os) (flat_map (given T) answers ++ gone).
Proof.
  intros T N w os N1 F. pose proof (C90_vinline_partial T N w os N1 F) as H. pose proof (l_run_count T os []) as C. destruct (l_run T [] os) as ((xs, a), d). destruct H as (w1 & v1 & w2 & E & _ & E2 & D & _).
  exists w1, v1, a, w2, (d ++ xs). split; [exact E|]. split; [exact E2|]. split; [exact D|exact C].
Qed.
(** The vector lives inside its owner until it outgrows it: while no more than [N] elements are ever in it, no block is
    allocated; and after [remove_compact] or [optimize_capacity] it is inside its owner if its elements fit. *)
Lemma fits_stack T N (N1 : 0 < N) B D w v xs x : rep T N B D w v xs -> on_stack T N v = true -> length xs < N ->
  exists v', v_push T N w v x = Some (w, v') /\ on_stack T N v' = true /\ rep T N B D w v' (xs ++ [x]).
Proof.
  intros R S L. assert (VC : vc T v = N) by (apply Nat.eqb_eq; exact S). assert (G : grow T N w v = Some (w, v)) by (unfold grow; rewrite (rep_len T N _ _ _ _ _ R); destruct (Nat.eqb_spec (length xs) (vc T v)); [lia|reflexivity]).
  destruct (rep_push T N N1 _ _ _ _ _ x R) as (w' & v' & E & R'). unfold v_push in E |- *. rewrite G in E |- *. unfold push_unchecked in E |- *. destruct (v_at T N w v) as [s|] eqn:AT; [|discriminate E]. destruct (wr T s (vl T v) x) as [s'|]; [|discriminate E].
  unfold v_at in AT. rewrite S in AT. unfold v_set in E |- *. destruct (vd T v); [|discriminate AT]. injection E as <- <-. eexists. split; [reflexivity|]. split; [exact S|exact R'].
Qed.
Theorem C90_inline : forall T N (w : world T) xs, 0 < N -> fresh T w -> length xs <= N ->
  exists v, v_extend T N w (v_new T N) xs = Some (w, v) /\ v_slice T N w v = Some xs.
Proof.
  intros T N w xs N1 F L.
  assert (G : forall ys v zs, rep T N (blocks T w) (drops T w) w v zs -> on_stack T N v = true -> length zs + length ys <= N -> exists v', v_extend T N w v ys = Some (w, v') /\ rep T N (blocks T w) (drops T w) w v' (zs ++ ys)).
  { induction ys as [|y ys IH]; intros v zs R S LL; [rewrite app_nil_r; exists v; split; [reflexivity|exact R]|]. cbn [v_extend length] in *.
    destruct (fits_stack T N N1 _ _ _ _ _ y R S ltac:(lia)) as (v1 & -> & S1 & R1). destruct (IH v1 (zs ++ [y]) R1 S1) as (v2 & E & R2); [rewrite app_length; cbn; lia|]. exists v2. split; [exact E|]. rewrite <- app_assoc in R2. exact R2. }
  destruct (G xs (v_new T N) [] (rep_new T N _ w F (fun _ => eq_refl))) as (v & E & R); [apply Nat.eqb_refl|exact L|]. exists v. split; [exact E|apply (rep_slice T N N1 _ _ _ _ _ R)].
Qed.
Theorem C90_compact : forall T N (w : world T) (os : list (vop T)), 0 < N -> fresh T w ->
  exists w1 v1 answers xs, v_run T N w (v_new T N) (os ++ [VOptimize T]) = Some (w1, v1, answers) /\ v_slice T N w1 v1 = Some xs /\
    (length xs <= N -> exists s, vd T v1 = UStack T s) /\ ((forall s, vd T v1 <> UStack T s) -> exists a s, vd T v1 = UHeap T a /\ blocks T w1 a = Some s /\ length xs <= length s).
Proof.
  intros T N w os N1 F. pose proof (rep_run T N N1 os (blocks T w) (drops T w) w (v_new T N) [] (rep_new T N (blocks T w) w F (fun _ => eq_refl))) as R. destruct (l_run T [] os) as ((xs, a), d). destruct R as (w1 & v1 & E & R).
  destruct (rep_optimize T N N1 _ _ _ _ _ R) as (w2 & v2 & E2 & R2 & S2). exists w2, v2, (a ++ [OUnit T]), xs.
  assert (RUN : forall os w v w1 v1 a, v_run T N w v os = Some (w1, v1, a) -> v_run T N w v (os ++ [VOptimize T]) = match optimize T N w1 v1 with Some (w2, v2) => Some (w2, v2, a ++ [OUnit T]) | None => None end).
  { clear. induction os as [|o os IH]; intros w v w1 v1 a H; cbn [app v_run] in *.
    - injection H as <- <- <-. cbn [v_exec]. destruct (optimize T N w v) as [(w2 & v2)|]; reflexivity.
    - destruct (v_exec T N w v o) as [((w3 & v3) & x)|]; [|discriminate H]. destruct (v_run T N w3 v3 os) as [((w4 & v4) & b)|] eqn:Q; [|discriminate H]. injection H as <- <- <-. rewrite (IH _ _ _ _ _ Q). destruct (optimize T N w4 v4) as [(w5 & v5)|]; reflexivity. }
  rewrite (RUN _ _ _ _ _ _ E), E2. split; [reflexivity|]. split; [apply (rep_slice T N N1 _ _ _ _ _ R2)|]. split.
  - intros L. assert (S : on_stack T N v2 = true) by (apply S2; right; exact L). apply Nat.eqb_eq in S. destruct R2 as [r V _ _ _ _ _ _|b r _ _ C _ _ _ _ _ _]; [eexists; exact V|lia].
  - intros NS. destruct R2 as [r V _ _ _ _ _ _|b r V _ _ _ A _ _ _ _]; [exfalso; exact (NS _ V)|]. eexists _, _. split; [exact V|]. split; [exact A|]. rewrite app_length, map_length. lia.
Qed.
(** A copy holds copies of the elements, in its own place; the original is untouched. *)
Theorem C90_clone : forall T N (copy : T -> T) (w : world T) (os : list (vop T)), 0 < N -> fresh T w ->
  exists w1 v1 answers xs w2 v2, v_run T N w (v_new T N) os = Some (w1, v1, answers) /\ v_slice T N w1 v1 = Some xs /\
    v_clone T N copy w1 v1 = Some (w2, v2) /\ v_slice T N w2 v2 = Some (map copy xs) /\ v_slice T N w2 v1 = Some xs /\
    exists w3, v_drop T N w2 v2 = Some w3 /\ drops T w3 = drops T w1 ++ map copy xs /\ forall a, blocks T w3 a = blocks T w1 a.
Proof.
  intros T N copy w os N1 F. pose proof (rep_run T N N1 os (blocks T w) (drops T w) w (v_new T N) [] (rep_new T N (blocks T w) w F (fun _ => eq_refl))) as R. destruct (l_run T [] os) as ((xs, a), d). destruct R as (w1 & v1 & E & R).
  assert (F1 : fresh T w1) by (destruct R; assumption). destruct (rep_extend T N N1 (blocks T w1) (drops T w1) (map copy xs) w1 (v_new T N) [] (rep_new T N _ w1 F1 (fun _ => eq_refl))) as (w2 & v2 & E2 & R2). cbn [app] in R2.
  exists w1, v1, a, xs, w2, v2. split; [exact E|]. split; [apply (rep_slice T N N1 _ _ _ _ _ R)|]. unfold v_clone. rewrite (rep_slice T N N1 _ _ _ _ _ R). split; [exact E2|]. split; [apply (rep_slice T N N1 _ _ _ _ _ R2)|]. split.
  - pose proof (rep_slice T N N1 _ _ _ _ _ R) as SL. unfold v_slice, v_at in *. destruct R as [r V L C S _ _ _|b r V L C S A _ BA Q _]; [rewrite (stack_yes T N v1 C), V in *; exact SL|]. rewrite (stack_no T N N1 v1 C), V in *. rewrite A in SL.
    assert (K : blocks T w2 b = blocks T w1 b). { destruct R2 as [r2 _ _ _ _ _ Q2 _|b2 r2 _ _ _ _ _ _ BA2 Q2 _]; [apply Q2|]. apply Q2. intros ->. rewrite BA2 in A. discriminate A. }
    rewrite K, A. exact SL.
  - destruct (rep_drop T N N1 _ _ _ _ _ R2) as (w3 & E3 & D3 & B3 & _). exists w3. split; [exact E3|]. split; [exact D3|exact B3].
Qed.
(** Taking a vector apart from both ends, for element types whose [Option] has the same bytes (a reference, a box): the
    elements come in order, and dropping the rest destroys exactly what was not taken and frees the block. *)
Theorem C90_into_iter_partial : forall T N (w : world T) (os : list (vop T)) (ds : list bool), 0 < N -> fresh T w ->
  exists w1 v1 answers xs t w2, v_run T N w (v_new T N) os = Some (w1, v1, answers) /\ v_slice T N w1 v1 = Some xs /\
    it_run T N true w1 (v_into T v1) ds = Some (t, snd (take T xs ds)) /\
    it_drop T N w1 t = Some w2 /\ drops T w2 = drops T w1 ++ fst (take T xs ds) /\ (forall a, blocks T w2 a = blocks T w a) /\
    Permutation xs (somes T (snd (take T xs ds)) ++ fst (take T xs ds)).
Proof.
  intros T N w os ds N1 F. pose proof (rep_run T N N1 os (blocks T w) (drops T w) w (v_new T N) [] (rep_new T N (blocks T w) w F (fun _ => eq_refl))) as R. destruct (l_run T [] os) as ((xs, a), d). destruct R as (w1 & v1 & E & R).
  destruct (it_run_ok T N N1 ds _ _ _ _ _ _ _ (into_rep T N _ _ _ _ _ R)) as (t & a' & c' & E2 & I). destruct (it_drop_ok T N N1 _ _ _ _ _ _ _ I) as (w2 & E3 & D & B & _).
  exists w1, v1, a, xs, t, w2. split; [exact E|]. split; [apply (rep_slice T N N1 _ _ _ _ _ R)|]. split; [exact E2|]. split; [exact E3|]. split; [rewrite D; f_equal; destruct R; congruence|]. split; [exact B|apply take_count].
Qed.
(** ** What is false *)
(** For any other element type (an integer, a type descriptor) the first element taken, from either end, is read as an
    [Option] over the bytes of the element: undefined behaviour, for every vector that is not empty. (The server does not
    call [into_iter] on these vectors.) *)
Theorem C90_into_iter_refuted : forall T N (w : world T) (os : list (vop T)) (b : bool), 0 < N -> fresh T w ->
  exists w1 v1 answers xs, v_run T N w (v_new T N) os = Some (w1, v1, answers) /\ v_slice T N w1 v1 = Some xs /\ (xs <> [] -> it_run T N false w1 (v_into T v1) [b] = None).
Proof.
  intros T N w os b N1 F. pose proof (rep_run T N N1 os (blocks T w) (drops T w) w (v_new T N) [] (rep_new T N (blocks T w) w F (fun _ => eq_refl))) as R. destruct (l_run T [] os) as ((xs, a), d). destruct R as (w1 & v1 & E & R).
  exists w1, v1, a, xs. split; [exact E|]. split; [apply (rep_slice T N N1 _ _ _ _ _ R)|]. intros NE. cbn [it_run]. unfold it_next, it_back, v_into. cbn [ii il iv]. rewrite (rep_len T N _ _ _ _ _ R). assert (Z : 0 =? length xs = false) by (destruct xs; [contradiction NE|]; reflexivity).
  rewrite Z. unfold read_cast. destruct b; destruct (v_at T N w1 (V T (vd T v1) 0 (vc T v1))) as [s|]; try reflexivity; destruct (rd T s _); reflexivity.
Qed.
(** A vector with no room inside: its capacity stays 0 however often it is doubled, and the first element is written
    outside of it. (No such type is used.) *)
Theorem C90_empty_refuted : forall T (w : world T) x, v_push T 0 w (v_new T 0) x = None.
Proof. intros. reflexivity. Qed.

(** ** UArray *)
Theorem C90_uarray : forall T N (os : list (uop T)),
  let '(xs, answers, destroyed) := u_lists T N [] os in
  exists u, u_run T N (u_new T N) os = Some (u, answers, destroyed) /\ u_slice T u = Some xs /\ u_drop T u = Some xs /\
    Permutation (flat_map (u_put_in T) os) (flat_map (u_given T) answers ++ destroyed ++ xs).
Proof.
  intros T N os. pose proof (u_run_ok T N os (u_new T N) [] (u_new_rep T N)) as R. pose proof (u_lists_count T N os []) as C. destruct (u_lists T N [] os) as ((xs, a), d). destruct R as (u & E & R).
  exists u. split; [exact E|]. split; [apply (urep_slice T N _ _ R)|]. split; [apply (u_drop_ok T N _ _ R)|exact C].
Qed.
Theorem C90_uarray_into_iter : forall T N (os : list (uop T)) (ds : list bool),
  exists u answers destroyed xs t, u_run T N (u_new T N) os = Some (u, answers, destroyed) /\ u_slice T u = Some xs /\
    uit_run T (u_into T u) ds = Some (t, snd (take T xs ds)) /\ uit_drop T t = Some (fst (take T xs ds)) /\
    Permutation xs (somes T (snd (take T xs ds)) ++ fst (take T xs ds)).
Proof.
  intros T N os ds. pose proof (u_run_ok T N os (u_new T N) [] (u_new_rep T N)) as R. destruct (u_lists T N [] os) as ((xs, a), d). destruct R as (u & E & R).
  destruct (uit_run_ok T N ds _ _ _ _ (u_into_rep T N _ _ R)) as (t & a' & c' & E2 & I).
  exists u, a, d, xs, t. split; [exact E|]. split; [apply (urep_slice T N _ _ R)|]. split; [exact E2|]. split; [apply (uit_drop_ok T N _ _ _ _ I)|apply take_count].
Qed.
(** [from_slice] (unsafe: the caller checks the length) is right exactly when the elements fit. *)
Theorem C90_from_slice : forall T N (xs : list T), (exists u, u_from_slice T N xs = Some u /\ u_slice T u = Some xs) <-> length xs <= N.
Proof.
  intros T N xs. split.
  - intros (u & E & _). destruct (le_lt_dec (length xs) N) as [L|L]; [exact L|]. rewrite (u_from_long T N xs L) in E. discriminate E.
  - intros L. destruct (u_from_ok T N xs L) as (u & E & R). exists u. split; [exact E|apply (urep_slice T N _ _ R)].
Qed.

(** * Cases *)
Definition w0 : world nat := W nat (fun a => if a =? 3 then Some [Some 7] else None) 3 [].
Example C90_fresh : fresh nat w0.
Proof. intros a L. cbn in L |- *. destruct (Nat.eqb_spec a 3); [lia|reflexivity]. Qed.
(** the sizes the server uses: one element inside *)
Definition ex_ops : list (vop nat) := [VPush nat 10; VSlice nat; VPush nat 20; VPush nat 30; VRemoveCompact nat 0; VSlice nat; VRemove nat 5; VRemoveCompact nat 0; VSlice nat; VExtend nat [40; 50]; VClear nat; VPush nat 60].
Example C90_case : option_map (fun r => snd r) (v_run nat 1 w0 (v_new nat 1) ex_ops) =
  Some [OUnit nat; OSlice nat [10]; OUnit nat; OUnit nat; OElem nat 10; OSlice nat [20; 30]; OPanic nat; OElem nat 20; OSlice nat [30]; OUnit nat; OUnit nat; OUnit nat].
Proof. vm_compute. reflexivity. Qed.
Example C90_case_drop : match v_run nat 1 w0 (v_new nat 1) ex_ops with Some (w1, v1, _) => match v_drop nat 1 w1 v1 with Some w2 => Some (drops nat w2, map (blocks nat w2) (seq 0 8)) | None => None end | None => None end =
  Some ([30; 40; 50; 60], [None; None; None; Some [Some 7]; None; None; None; None]).
Proof. vm_compute. reflexivity. Qed.
Example C90_case_take : take nat [1; 2; 3; 4] [true; false; true] = ([3], [Some 1; Some 4; Some 2]).
Proof. reflexivity. Qed.
Example C90_case_uarray : option_map (fun r => (snd (fst r), snd r)) (u_run nat 2 (u_new nat 2) [UPush nat 1; UPush nat 2; UPush nat 3; UPop nat; USlice nat; UClear nat; UPop nat]) =
  Some ([PUnit nat; PUnit nat; PPanic nat; PElem nat 2; PSlice nat [1]; PUnit nat; PNone nat], [3; 1]).
Proof. vm_compute. reflexivity. Qed.

Print Assumptions C90_vinline_partial.
Print Assumptions C90_elements.
Print Assumptions C90_inline.
Print Assumptions C90_compact.
Print Assumptions C90_clone.
Print Assumptions C90_into_iter_partial.
Print Assumptions C90_into_iter_refuted.
Print Assumptions C90_empty_refuted.
Print Assumptions C90_uarray.
Print Assumptions C90_uarray_into_iter.
Print Assumptions C90_from_slice.
