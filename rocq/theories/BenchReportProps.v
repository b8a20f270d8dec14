(** C123: the benchmark reports the number of queries it performed. *)
From Coq Require Import Strings.String.
From Coq Require Import List Arith NArith Bool Lia Permutation Init.Byte.
From Verif Require Import Bytes NumModel NumProofs ArgsModel ArgsProps BenchModel BenchSpec BenchProofs BenchProps BenchArgsModel BenchArgsProps BenchRunModel BenchReportModel.
Import ListNotations.
Local Open Scope list_scope.
Local Open Scope N_scope.

(** ** Specification *)
(** The decimal text of a number, with a comma before every three digits counted from the right: a group of one to three digits, then groups of three. *)
Definition in_threes (n : N) (t : bytes) : Prop :=
  exists g gs, (1 <= List.length g <= 3)%nat /\ Forall (fun h : bytes => List.length h = 3%nat) gs /\ dec_text n (g ++ concat gs) /\ t = g ++ concat (map (fun h => bstr "," ++ h) gs).

(** ** Proofs *)
Lemma loop_shift_s i l : fmt_loop (S (S (S (S i)))) l = fmt_loop (S i) l.
Proof.
  revert i. induction l as [|c r IH]; intros i; [reflexivity|]. cbn [fmt_loop]. rewrite (IH (S i)).
  replace (S (S (S (S i))) mod 3)%nat with (S i mod 3)%nat; [reflexivity|].
  replace (S (S (S (S i)))) with (S i + 1 * 3)%nat by lia. rewrite Nat.mod_add by lia. reflexivity.
Qed.
Lemma loop_shift l : l <> [] -> fmt_loop 3 l = x2c :: fmt_loop 0 l.
Proof.
  destruct l as [|c r]; [congruence|]. intros _. cbn [fmt_loop]. rewrite (loop_shift_s 0 r). reflexivity.
Qed.
Lemma loop_threes g gs : (1 <= List.length g <= 3)%nat -> Forall (fun h : bytes => List.length h = 3%nat) gs ->
  rev (fmt_loop 0 (rev (g ++ concat gs))) = g ++ concat (map (fun h => bstr "," ++ h) gs).
Proof.
  intros G. induction gs as [|h gs IH] using rev_ind; intros F.
  - cbn [concat map]. rewrite !app_nil_r. destruct g as [|a [|b [|c [|d g]]]]; cbn in G; try lia; reflexivity.
  - apply Forall_app in F as [F H]. specialize (IH F). inversion H as [|? ? H3 _]; subst. destruct h as [|x [|y [|z [|w h]]]]; try discriminate H3.
    rewrite map_app, !concat_app. cbn [map concat]. rewrite !app_nil_r. rewrite !app_assoc, rev_app_distr. cbn [rev app fmt_loop Nat.modulo Nat.divmod Nat.eqb andb negb].
    change (fst (Nat.divmod 0 2 0 2)) with 0%nat. rewrite loop_shift.
    + change (rev (z :: y :: x :: x2c :: fmt_loop 0 (rev (g ++ concat gs))) = ((g ++ concat (map (fun h => bstr "," ++ h) gs)) ++ bstr ",") ++ [x; y; z]).
      cbn [rev]. rewrite IH, <- !app_assoc. reflexivity.
    + intros E. apply (f_equal (@List.length byte)) in E. rewrite rev_length, app_length in E. cbn [List.length] in E. lia.
Qed.
Lemma cut_in_threes m : forall t : bytes, (List.length t <= m)%nat -> t <> [] ->
  exists g gs, (1 <= List.length g <= 3)%nat /\ Forall (fun h : bytes => List.length h = 3%nat) gs /\ t = g ++ concat gs.
Proof.
  induction m as [|m IH]; intros t L NE; [destruct t; [congruence|cbn in L; lia]|].
  destruct (le_lt_dec (List.length t) 3) as [S3|S3].
  - exists t, []. split; [destruct t; [congruence|cbn in *; lia]|]. split; [constructor|]. cbn. rewrite app_nil_r. reflexivity.
  - destruct (IH (firstn (List.length t - 3) t)) as (g & gs & G & F & E).
    + rewrite firstn_length. lia.
    + intros E. apply (f_equal (@List.length byte)) in E. rewrite firstn_length in E. cbn in E. lia.
    + exists g, (gs ++ [skipn (List.length t - 3) t]). split; [exact G|]. split.
      * apply Forall_app. split; [exact F|]. constructor; [|constructor]. rewrite skipn_length. lia.
      * rewrite concat_app. cbn [concat]. rewrite app_nil_r, app_assoc, <- E. symmetry. apply firstn_skipn.
Qed.

(** ** C123 *)
(** The text, exactly. *)
Theorem C123_text n t : n < two64 -> (t = fmt_u64 n <-> in_threes n t).
Proof.
  intros L. pose proof (dec_u64_text n L) as D. unfold fmt_u64. split.
  - intros ->. destruct (cut_in_threes _ (dec_u64 n) (le_n _)) as (g & gs & G & F & E); [exact (proj1 D)|].
    exists g, gs. rewrite <- E. split; [exact G|]. split; [exact F|]. split; [exact D|]. rewrite E. apply loop_threes; assumption.
  - intros (g & gs & G & F & D' & ->). rewrite (dec_text_unique _ _ _ D D'). symmetry. apply loop_threes; assumption.
Qed.
Example C123_text_example :
  map fmt_u64 [0; 12; 123; 1234; 123456; 4000000; 18446744073709551615] = map bstr ["0"; "12"; "123"; "1,234"; "123,456"; "4,000,000"; "18,446,744,073,709,551,615"]%string.
Proof. vm_compute. reflexivity. Qed.
(** Different numbers look different. *)
Theorem C123_different n m t : in_threes n t -> in_threes m t -> n = m.
Proof.
  assert (S : forall g gs, Forall (fun h : bytes => List.length h = 3%nat) gs -> all_digits (g ++ concat gs) ->
    filter (fun b => negb (Byte.eqb b x2c)) (g ++ concat (map (fun h => bstr "," ++ h) gs)) = g ++ concat gs).
  { assert (K : forall l, all_digits l -> filter (fun b => negb (Byte.eqb b x2c)) l = l).
    { induction l as [|b l IH]; intros A; [reflexivity|]. inversion A as [|? ? B A']; subst. cbn [filter].
      replace (Byte.eqb b x2c) with false; [cbn [negb]; f_equal; apply IH; exact A'|]. symmetry. destruct (Byte.eqb b x2c) eqn:E; [|reflexivity].
      apply Byte.byte_dec_bl in E. subst b. vm_compute in B. destruct B as [B _]. destruct (B eq_refl). }
    intros g gs _ A. apply Forall_app in A as [A B]. rewrite filter_app, (K g A). f_equal. clear g A. induction gs as [|h gs IH]; [reflexivity|].
    cbn [map concat] in *. apply Forall_app in B as [B C]. rewrite <- !app_assoc, filter_app. change (filter (fun b => negb (Byte.eqb b x2c)) (bstr ",")) with (@nil byte). cbn [app].
    rewrite filter_app, (K h B), (IH C). reflexivity. }
  intros (g & gs & _ & F & (_ & A & V & _) & ->) (g' & gs' & _ & F' & (_ & A' & V' & _) & E).
  apply S in A; [|exact F]. apply S in A'; [|exact F']. rewrite E, A' in A. rewrite A in V'. congruence.
Qed.
Example C123_different_example : in_threes 1234 (bstr "1,234") /\ ~ in_threes 1234 (bstr "12,34").
Proof.
  split; [apply C123_text; vm_compute; reflexivity|]. intros H. apply C123_text in H; [|vm_compute; reflexivity]. vm_compute in H. discriminate H.
Qed.
Lemma by_phase k (l : list entry) : Forall (fun e => (e_ph e < k)%nat) l ->
  N.of_nat (List.length l) = fold_right (fun i a => N.of_nat (List.length (of_ph i l)) + a) 0 (seq 0 k).
Proof.
  intros F. assert (G : forall m j, N.of_nat (List.length (filter (fun e => (j <=? e_ph e)%nat && (e_ph e <? j + m)%nat) l)) =
    fold_right (fun i a => N.of_nat (List.length (of_ph i l)) + a) 0 (seq j m)).
  { clear F. induction m as [|m IH]; intros j; cbn [seq fold_right].
    - rewrite Nat.add_0_r. induction l as [|e r IH]; [reflexivity|]. cbn [filter]. replace ((j <=? e_ph e)%nat && (e_ph e <? j)%nat) with false; [exact IH|].
      symmetry. apply andb_false_iff. destruct (Nat.leb_spec j (e_ph e)); [right; apply Nat.ltb_ge; lia|left; reflexivity].
    - rewrite <- (IH (S j)). clear IH. unfold of_ph. induction l as [|e r IH]; [reflexivity|]. cbn [filter].
      destruct (Nat.leb_spec j (e_ph e)), (Nat.ltb_spec (e_ph e) (j + S m)), (Nat.eqb_spec (e_ph e) j), (Nat.leb_spec (S j) (e_ph e)), (Nat.ltb_spec (e_ph e) (S j + m)); cbn [andb List.length]; lia. }
  rewrite <- (G k 0%nat). f_equal. f_equal. clear G. induction l as [|e r IH]; [reflexivity|]. inversion F as [|? ? E F']; subst. cbn [filter Nat.leb Nat.add andb].
  rewrite (proj2 (Nat.ltb_lt _ _) E). f_equal. exact (IH F').
Qed.
(** What is shown after a run that ended well: the number of the queries answered, if four times the row count is a number of 64 bits. *)
Theorem C123_total_partial rookie n t rows ls s : (0 < n)%nat -> run rookie n (init t (btasks rows)) ls = Some s -> main s = MOk ->
  4 * rows < two64 -> in_threes (N.of_nat (List.length (log s))) (breport rows).
Proof.
  intros NP R M L. assert (E : N.of_nat (List.length (log s)) = 4 * rows).
  { rewrite (by_phase 4).
    - assert (K : forall k, (k < 4)%nat -> N.of_nat (List.length (of_ph k (log s))) = rows).
      { intros k LK. assert (NE : nth_error (btasks rows) k = Some rows) by (do 4 (destruct k as [|k]; [reflexivity|]); lia).
        destruct (reach rookie n NP t _ ls s R) as [[HA [HZ [HK HH]]] _].
        destruct (h_counts _ _ _ HH) as [dn [A [B C]]]. rewrite M in A. destruct (a_ok _ _ HA M) as [_ [ID [OK TD]]].
        rewrite TD, app_nil_r in A. subst dn. specialize (C k rows NE). change (of_phase k (log s)) with (of_ph k (log s)) in C.
        apply Permutation_length in C. rewrite map_length in C. rewrite C. unfold keys. rewrite map_length, seq_length. lia. }
      cbn [seq fold_right]. rewrite !K by lia. lia.
    - destruct (reach rookie n NP t _ ls s R) as [[HA [HZ [HK HH]]] _]. destruct (h_counts _ _ _ HH) as [dn [A [B C]]]. rewrite M in A.
      destruct (a_ok _ _ HA M) as [_ [ID [OK TD]]]. rewrite TD, app_nil_r in A. subst dn. apply Forall_forall. intros e I.
      pose proof (h_lt _ _ _ HH e I ltac:(rewrite M; auto)) as X. rewrite <- B in X. exact X. }
  rewrite E. apply C123_text; [exact L|]. unfold breport, btotal. cbn [btasks map List.length]. change (N.of_nat 4) with 4. rewrite N.mod_small; [f_equal; lia|].
  unfold two64 in L. lia.
Qed.
Example C123_total_example : exists s, run true 2 (init 100 (btasks 2)) (rookie_phase ++ rookie_phase ++ rookie_phase ++ rookie_phase ++ [MS]) = Some s /\ main s = MOk /\
  List.length (log s) = 8%nat /\ breport 2 = bstr "8".
Proof. eexists. split; [vm_compute; reflexivity|]. vm_compute. auto. Qed.
(** What is false: the product is not checked, so that 2^62 rows, an accepted number, count as none. *)
Theorem C123_total_refuted : exists argv c,
  bparse ilog (Some []) 4 argv = inl (BRun c) /\ b_rows c = 2 ^ 62 /\ breport (b_rows c) = bstr "0" /\ ~ in_threes (4 * b_rows c) (breport (b_rows c)).
Proof.
  exists (cl ["sky-bench"; "--rowcount=4611686018427387904"]%string). eexists. split; [vm_compute; reflexivity|]. split; [reflexivity|]. split; [vm_compute; reflexivity|].
  intros H. pose proof (C123_different _ 0 _ H) as E. assert (D : in_threes 0 (breport 4611686018427387904)) by (apply C123_text; vm_compute; reflexivity).
  specialize (E D). discriminate E.
Qed.

Print Assumptions C123_text.
Print Assumptions C123_different.
Print Assumptions C123_total_partial.
Print Assumptions C123_total_refuted.
