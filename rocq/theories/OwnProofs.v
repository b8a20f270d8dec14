(** Ownership: an invariant that counts owners of every block, kept by every operation. *)
From Coq Require Import List NArith Bool Arith Lia.
From Verif Require Import Bytes OwnModel OwnSpec.
Import ListNotations.

(** ** Lists *)
Lemma set_len {A} (l : list A) : forall i a, length (set l i a) = length l.
Proof. induction l as [|b l IH]; intros [|i] a; cbn [set length]; auto. Qed.
Lemma nth_set {A} (l : list A) : forall i a j, nth_error (set l i a) j = if Nat.eq_dec i j then match nth_error l j with Some _ => Some a | None => None end else nth_error l j.
Proof.
  induction l as [|b l IH]; intros i a j.
  - cbn [set]. destruct (Nat.eq_dec i j); [destruct j; reflexivity|reflexivity].
  - destruct i as [|i], j as [|j]; cbn [set nth_error]; auto. rewrite IH. destruct (Nat.eq_dec i j), (Nat.eq_dec (S i) (S j)); auto; lia.
Qed.
Lemma nth_app1 {A} (l : list A) a j : nth_error (l ++ [a]) j = if Nat.eq_dec j (length l) then Some a else nth_error l j.
Proof.
  destruct (Nat.eq_dec j (length l)) as [->|D].
  - rewrite nth_error_app2 by lia. rewrite Nat.sub_diag. reflexivity.
  - destruct (Nat.lt_ge_cases j (length l)).
    + apply nth_error_app1. assumption.
    + rewrite nth_error_app2 by lia. destruct (j - length l) as [|k] eqn:E; [lia|]. cbn [nth_error]. destruct k; cbn; symmetry; apply nth_error_None; lia.
Qed.
Lemma nth_lt {A} (l : list A) i a : nth_error l i = Some a -> i < length l.
Proof. intros H. apply nth_error_Some. congruence. Qed.

Notation cnt l a := (count_occ Nat.eq_dec l a).
Lemma cnt_in l a : In a l <-> 0 < cnt l a.
Proof. rewrite (count_occ_In Nat.eq_dec). lia. Qed.
Lemma cnt_app l r a : cnt (l ++ r) a = cnt l a + cnt r a.
Proof. apply count_occ_app. Qed.

(** ** Cells, addresses *)
Definition bpv (v : val) : list nat :=
  match v with
  | VSlice w => addr w | VLit l => if l_heap l then [] else if wide (l_cls l) then addr (l_word l) else [] | VVirt c => fpc c
  | _ => []
  end.
Lemma fpc_list l : fpc (CList l) = fcs l.
Proof. cbn [fpc]. induction l as [|x l IH]; cbn [fcs]; congruence. Qed.
Lemma read_list m l : read_cell m (CList l) = match read_cells m l with Ok r => Ok (SList r) | Bad => Bad | UB => UB end.
Proof.
  cbn [read_cell]. assert (E : forall l, (fix go (l : list cell) : R (list seen) := match l with [] => Ok [] | x :: r => let! a := read_cell m x in let! b := go r in Ok (a :: b) end) l = read_cells m l).
  { clear. induction l as [|x l IH]; cbn [read_cells]; [reflexivity|]. rewrite IH. reflexivity. }
  rewrite E. reflexivity.
Qed.
Lemma drop_list m l : drop_cell m (CList l) = drop_cells m l.
Proof. cbn [drop_cell]. revert m. induction l as [|x l IH]; intros m; cbn [drop_cells]; [reflexivity|]. destruct (drop_cell m x); auto. Qed.
Lemma cell_ind' (P : cell -> Prop) : (forall i c w, P (CWord i c w)) -> (forall l, Forall P l -> P (CList l)) -> forall c, P c.
Proof.
  intros A B. fix go 1. intros [i c w|l]; [apply A|]. apply B. induction l as [|x l IH]; constructor; [apply go|exact IH].
Qed.
Lemma fcs_app l r : fcs (l ++ r) = fcs l ++ fcs r.
Proof. induction l as [|x l IH]; cbn [fcs app]; [reflexivity|]. rewrite IH, app_assoc. reflexivity. Qed.

(** *** Reading depends on the addresses only *)
Definition same (m m' : mem) (l : list nat) : Prop := forall a, In a l -> nth_error m' a = nth_error m a.
Lemma same_app m m' l r : same m m' (l ++ r) -> same m m' l /\ same m m' r.
Proof. intros H. split; intros a I; apply H; apply in_or_app; auto. Qed.
Lemma read_same m m' w : same m m' (addr w) -> read m' w = read m w.
Proof.
  destruct w as [n p]. unfold same, addr, read. cbn [fst snd]. destruct n as [|n]; [reflexivity|]. destruct p as [| |a o]; auto.
  intros H. rewrite (H a) by (left; reflexivity). reflexivity.
Qed.
Lemma read_word_same m m' c w : same m m' (if wide c then addr w else []) -> read_word m' c w = read_word m c w.
Proof. unfold read_word. destruct (wide c); [|reflexivity]. intros H. rewrite (read_same _ _ _ H). reflexivity. Qed.
Lemma read_cell_same m m' : forall c, same m m' (fpc c) -> read_cell m' c = read_cell m c.
Proof.
  induction c as [i c w|l IH] using cell_ind'; intros S.
  - cbn [read_cell]. destruct i; [|reflexivity]. apply read_word_same. exact S.
  - rewrite fpc_list in S. rewrite !read_list. assert (E : read_cells m' l = read_cells m l); [|rewrite E; reflexivity].
    induction IH as [|x l F IH IH2]; cbn [read_cells]; [reflexivity|]. cbn [fcs] in S. apply same_app in S as [S1 S2].
    rewrite (F S1), (IH2 S2). reflexivity.
Qed.
Lemma read_cells_same m m' l : same m m' (fcs l) -> read_cells m' l = read_cells m l.
Proof.
  induction l as [|x l IH]; cbn [read_cells fcs]; intros S; [reflexivity|]. apply same_app in S as [S1 S2].
  rewrite (read_cell_same _ _ _ S1), (IH S2). reflexivity.
Qed.

(** *** Whole blocks *)
Definition full (m : mem) (w : word) : Prop :=
  fst w = 0%N \/ exists a bs, snd w = PAt a 0 /\ nth_error m a = Some (Some bs) /\ fst w = N.of_nat (length bs).
Fixpoint fullc (m : mem) (c : cell) : Prop :=
  match c with
  | CWord i c w => wide c = true -> full m w /\ i = true
  | CList l => (fix go (l : list cell) : Prop := match l with [] => True | x :: r => fullc m x /\ go r end) l
  end.
Fixpoint fulls (m : mem) (l : list cell) : Prop := match l with [] => True | x :: r => fullc m x /\ fulls m r end.
Lemma full_list m l : fullc m (CList l) <-> fulls m l.
Proof. cbn [fullc]. induction l as [|x l IH]; cbn [fulls]; tauto. Qed.
Lemma fulls_app m l r : fulls m (l ++ r) <-> fulls m l /\ fulls m r.
Proof. induction l as [|x l IH]; cbn [fulls app]; tauto. Qed.
Definition fullk (m : mem) (k : key) : Prop := wide (k_cls k) = true -> full m (k_word k).
Definition fullv (m : mem) (v : val) : Prop :=
  match v with
  | VBox w => full m w
  | VLit l => l_heap l = true -> full m (l_word l) /\ wide (l_cls l) = true
  | VCell c => fullc m c | VCells l => fulls m l | VKey k => fullk m k
  | _ => True
  end.
Lemma full_same m m' w : same m m' (addr w) -> full m w -> full m' w.
Proof.
  destruct w as [n p]. unfold full, same, addr. cbn [fst snd]. intros S [Z|(a & bs & P & E & L)]; [left; exact Z|].
  destruct n as [|n]; [left; reflexivity|]. right. subst p. exists a, bs. split; [reflexivity|]. split; [|exact L]. rewrite S by (left; reflexivity). exact E.
Qed.
Lemma fullc_same m m' : forall c, same m m' (fpc c) -> fullc m c -> fullc m' c.
Proof.
  induction c as [i c w|l IH] using cell_ind'.
  - cbn [fpc fullc]. intros S F W. rewrite W in S. destruct (F W). split; [eapply full_same; eauto|assumption].
  - rewrite fpc_list, !full_list. induction IH as [|x l F IH IH2]; cbn [fcs fulls]; auto. intros S [A B]. apply same_app in S as [S1 S2]. auto.
Qed.
Lemma fulls_same m m' l : same m m' (fcs l) -> fulls m l -> fulls m' l.
Proof. rewrite <- fpc_list, <- !full_list. apply fullc_same. Qed.
Lemma fullk_same m m' k : same m m' (fpk k) -> fullk m k -> fullk m' k.
Proof. unfold fullk, fpk. intros S F W. rewrite W in S. eapply full_same; eauto. Qed.
Lemma fullv_same m m' v : same m m' (fpv v) -> fullv m v -> fullv m' v.
Proof.
  destruct v as [w|w|l|c|l|k|c|h]; cbn [fpv fullv]; auto.
  - apply full_same.
  - intros S F H. rewrite H in S. destruct (F H). split; [eapply full_same; eauto|assumption].
  - apply fullc_same.
  - apply fulls_same.
  - apply fullk_same.
Qed.
Lemma full_read m w : full m w -> exists b, read m w = Ok b /\ fst w = N.of_nat (length b).
Proof.
  destruct w as [n p]. unfold full, read. cbn [fst snd]. intros [->|(a & bs & -> & E & L)]; [exists []; auto|].
  destruct n as [|n]; [exists []; auto|]. rewrite E. replace (N.pos n <=? N.of_nat (length bs - 0))%N with true by (symmetry; apply N.leb_le; lia).
  exists bs. cbn [skipn]. rewrite L, Nnat.Nat2N.id, firstn_all. auto.
Qed.

(** What a variable says *)
Definition show (m : mem) (v : val) : R aval :=
  match v with
  | VBox w => let! b := read m w in Ok (ABox b)
  | VSlice w => let! b := read m w in Ok (ASlice b)
  | VLit l => let! x := read_word m (l_cls l) (l_word l) in Ok (ALit x)
  | VCell c => let! x := read_cell m c in Ok (ACell x)
  | VCells l => let! x := read_cells m l in Ok (ACells x)
  | VKey k => let! x := read_word m (k_cls k) (k_word k) in Ok (AKey x)
  | VVirt c => let! x := read_cell m c in Ok (AVirt x)
  | VRow h => Ok (ARow (h_id h))
  end.
Lemma show_same m m' v : (forall l, v = VLit l -> l_heap l = true -> wide (l_cls l) = true) -> same m m' (fpv v ++ bpv v) -> show m' v = show m v.
Proof.
  intros LW S. apply same_app in S as [S1 S2]. destruct v as [w|w|l|c|l|k|c|h]; cbn [show fpv bpv] in *.
  - rewrite (read_same _ _ _ S1). reflexivity.
  - rewrite (read_same _ _ _ S2). reflexivity.
  - rewrite (read_word_same m m'); [reflexivity|]. destruct (l_heap l) eqn:H; [|exact S2]. rewrite (LW l eq_refl H). exact S1.
  - rewrite (read_cell_same _ _ _ S1). reflexivity.
  - rewrite (read_cells_same _ _ _ S1). reflexivity.
  - rewrite (read_word_same m m'); [reflexivity|exact S1].
  - rewrite (read_cell_same _ _ _ S2). reflexivity.
  - reflexivity.
Qed.

(** ** Counting *)
Definition live (m : mem) (a : nat) : nat := match nth_error m a with Some (Some _) => 1 | _ => 0 end.
Definition fpb (b : option (val * list nat)) : list nat := match b with Some (x, _) => fpv x | None => [] end.
Fixpoint tenv (e : list (option (val * list nat))) (a : nat) : nat := match e with [] => 0 | b :: r => cnt (fpb b) a + tenv r a end.
Definition fpo (k : key) (o : option robj) : list nat := match o with Some r => fpk k ++ fcs (r_cells r) | None => [] end.
Fixpoint tobj (kf : nat -> key) (i : nat) (l : list (option robj)) (a : nat) : nat :=
  match l with [] => 0 | o :: r => cnt (fpo (kf i) o) a + tobj kf (S i) r a end.
Definition isrow (i : nat) (b : option (val * list nat)) : nat := match b with Some (VRow h, _) => if Nat.eq_dec (h_id h) i then 1 else 0 | _ => 0 end.
Fixpoint handles (e : list (option (val * list nat))) (i : nat) : nat := match e with [] => 0 | b :: r => isrow i b + handles r i end.

Lemma tenv_set e : forall v b b' a, nth_error e v = Some b -> tenv (set e v b') a + cnt (fpb b) a = tenv e a + cnt (fpb b') a.
Proof.
  induction e as [|c e IH]; intros [|v] b b' a H; cbn [nth_error set tenv] in *; [discriminate H|discriminate H|injection H as ->; lia|].
  specialize (IH v b b' a H). lia.
Qed.
Lemma tenv_app e b a : tenv (e ++ [b]) a = tenv e a + cnt (fpb b) a.
Proof. induction e as [|c e IH]; cbn [tenv app]; lia. Qed.
Lemma tenv_in e v b a : nth_error e v = Some b -> cnt (fpb b) a <= tenv e a.
Proof. revert v. induction e as [|c e IH]; intros [|v] H; cbn [nth_error tenv] in *; [discriminate H|discriminate H|injection H as ->; lia|]. specialize (IH v H). lia. Qed.
Lemma handles_set e : forall v b b' i, nth_error e v = Some b -> handles (set e v b') i + isrow i b = handles e i + isrow i b'.
Proof.
  induction e as [|c e IH]; intros [|v] b b' i H; cbn [nth_error set handles] in *; [discriminate H|discriminate H|injection H as ->; lia|].
  specialize (IH v b b' i H). lia.
Qed.
Lemma handles_app e b i : handles (e ++ [b]) i = handles e i + isrow i b.
Proof. induction e as [|c e IH]; cbn [handles app]; lia. Qed.
Lemma handles_in e v b i : nth_error e v = Some b -> isrow i b <= handles e i.
Proof. revert v. induction e as [|c e IH]; intros [|v] H; cbn [nth_error handles] in *; [discriminate H|discriminate H|injection H as ->; lia|]. specialize (IH v H). lia. Qed.
Lemma tobj_set kf l : forall b i o o' a, nth_error l i = Some o -> tobj kf b (set l i o') a + cnt (fpo (kf (b + i)) o) a = tobj kf b l a + cnt (fpo (kf (b + i)) o') a.
Proof.
  induction l as [|c l IH]; intros b [|i] o o' a H; cbn [nth_error set tobj] in *; [discriminate H|discriminate H| |].
  - injection H as ->. rewrite Nat.add_0_r. lia.
  - specialize (IH (S b) i o o' a H). replace (S b + i) with (b + S i) in IH by lia. lia.
Qed.
Lemma tobj_app kf l : forall b o a, tobj kf b (l ++ [o]) a = tobj kf b l a + cnt (fpo (kf (b + length l)) o) a.
Proof.
  induction l as [|c l IH]; intros b o a; cbn [tobj app length].
  - replace (b + 0) with b by lia. lia.
  - rewrite IH. replace (S b + length l) with (b + S (length l)) by lia. lia.
Qed.
Lemma tobj_ext kf kf' l : forall b a, (forall i, b <= i < b + length l -> kf i = kf' i) -> tobj kf b l a = tobj kf' b l a.
Proof.
  induction l as [|c l IH]; intros b a H; cbn [tobj length] in *; [reflexivity|]. rewrite (H b) by lia. f_equal. apply IH. intros i L. apply H. lia.
Qed.
Lemma tobj_in kf l : forall b i o a, nth_error l i = Some o -> cnt (fpo (kf (b + i)) o) a <= tobj kf b l a.
Proof.
  induction l as [|c l IH]; intros b [|i] o a H; cbn [nth_error tobj] in *; [discriminate H|discriminate H|injection H as ->; rewrite Nat.add_0_r; lia|].
  specialize (IH (S b) i o a H). replace (S b + i) with (b + S i) in IH by lia. lia.
Qed.

(** ** The invariant *)
(** [kf]: the key of each row; [L]: addresses in the hands of the running operation; [H]: row handles in its hands *)
Definition lender (e : list (option (val * list nat))) (a u : nat) : Prop :=
  exists y l, nth_error e u = Some (Some (y, l)) /\ (In a (fpv y) \/ exists h, y = VRow h /\ In a (fpk (h_key h))).
Record inv (s : st) (t : ast) (kf : nat -> key) (L H : list nat) : Prop := mk_inv {
  v_len : length (env s) = length (vars t);
  v_show : forall v x l, nth_error (env s) v = Some (Some (x, l)) -> exists y, nth_error (vars t) v = Some (Some y) /\ show (mm s) x = Ok y;
  v_full : forall v x l, nth_error (env s) v = Some (Some (x, l)) -> fullv (mm s) x;
  v_row : forall v h l, nth_error (env s) v = Some (Some (VRow h, l)) -> h_key h = kf (h_id h) /\ exists r, nth_error (objs s) (h_id h) = Some (Some r);
  v_lend : forall v x l u, nth_error (env s) v = Some (Some (x, l)) -> In u l -> u < v /\ exists b, nth_error (env s) u = Some (Some b);
  v_bor : forall v x l a, nth_error (env s) v = Some (Some (x, l)) -> In a (bpv x) -> exists u, In u l /\ lender (env s) a u;
  o_len : length (objs s) = length (arows t);
  o_obj : forall i r, nth_error (objs s) i = Some (Some r) ->
            exists k l, nth_error (arows t) i = Some (k, l) /\ read_word (mm s) (k_cls (kf i)) (k_word (kf i)) = Ok k /\ read_cells (mm s) (r_cells r) = Ok l;
  o_full : forall i r, nth_error (objs s) i = Some (Some r) -> fullk (mm s) (kf i) /\ fulls (mm s) (r_cells r);
  o_count : forall i r, nth_error (objs s) i = Some (Some r) -> r_count r = handles (env s) i + cnt H i /\ 0 < r_count r;
  o_float : forall i, In i H -> exists r, nth_error (objs s) i = Some (Some r);
  all : forall a, tenv (env s) a + tobj kf 0 (objs s) a + cnt L a = live (mm s) a }.

Lemma inv_start : inv start nothing (fun _ => mk_key UInt (0%N, PZero)) [] [].
Proof.
  constructor; cbn [start nothing env vars objs arows mm length]; try reflexivity; try (intros v; destruct v; intros; discriminate); try (intros i; destruct i; intros; discriminate).
  - intros i [].
  - intros a. unfold live. destruct a; reflexivity.
Qed.
Lemma live_le m a : live m a <= 1.
Proof. unfold live. destruct (nth_error m a) as [[b|]|]; lia. Qed.

Lemma inv_perm s t kf L L' H : (forall a, cnt L a = cnt L' a) -> inv s t kf L H -> inv s t kf L' H.
Proof. intros E [A B C D F G I J K M N O]. constructor; auto. intros a. rewrite <- E. apply O. Qed.

(** heap literals have a string's class *)
Lemma lit_wide s t kf L H v x l : inv s t kf L H -> nth_error (env s) v = Some (Some (x, l)) -> forall a, x = VLit a -> l_heap a = true -> wide (l_cls a) = true.
Proof. intros I E a -> HP. pose proof (v_full _ _ _ _ _ I _ _ _ E) as F. cbn [fullv] in F. apply F. exact HP. Qed.

(** Another memory that agrees on all that is owned by variables and rows *)
Lemma mem_ok s t kf L H m L' : inv s t kf L H ->
  (forall a, 0 < tenv (env s) a + tobj kf 0 (objs s) a -> nth_error m a = nth_error (mm s) a) ->
  (forall a, tenv (env s) a + tobj kf 0 (objs s) a + cnt L' a = live m a) ->
  inv (mk_st m (env s) (objs s)) t kf L' H.
Proof.
  intros I S A. pose proof I as I0. destruct I as [A1 A2 A3 A4 A5 A6 A7 A8 A9 A10 A11 A12]. constructor; cbn [mm env objs]; auto.
  - intros v x l E. destruct (A2 v x l E) as (y & Y & SH). exists y. split; [exact Y|]. rewrite <- SH. apply show_same; [eapply lit_wide; eassumption|].
    intros a J. apply S. apply in_app_or in J as [J|J].
    + apply cnt_in in J. pose proof (tenv_in _ _ _ a E) as T. cbn [fpb] in T. lia.
    + destruct (A6 v x l a E J) as (u & U & z & l' & EU & [K|(h & -> & K)]).
      * apply cnt_in in K. pose proof (tenv_in _ _ _ a EU) as T. cbn [fpb] in T. lia.
      * destruct (A4 _ _ _ EU) as (KE & r & R). rewrite KE in K. pose proof (tobj_in kf _ 0 _ _ a R) as T. cbn [fpo] in T. cbn [Nat.add] in T.
        apply cnt_in in K. rewrite cnt_app in T. lia.
  - intros v x l E. eapply fullv_same; [|eapply A3; exact E]. intros a J. apply S. apply cnt_in in J. pose proof (tenv_in _ _ _ a E) as T. cbn [fpb] in T. lia.
  - intros i r E. destruct (A8 i r E) as (k & l & Q & K & C). exists k, l. split; [exact Q|]. pose proof (fun a => tobj_in kf _ 0 _ _ a E) as T. cbn [fpo Nat.add] in T.
    split.
    + rewrite <- K. apply read_word_same. intros a J. apply S. specialize (T a). rewrite cnt_app in T. apply cnt_in in J. unfold fpk in T. lia.
    + rewrite <- C. apply read_cells_same. intros a J. apply S. specialize (T a). rewrite cnt_app in T. apply cnt_in in J. lia.
  - intros i r E. destruct (A9 i r E) as (K & C). pose proof (fun a => tobj_in kf _ 0 _ _ a E) as T. cbn [fpo Nat.add] in T. split.
    + eapply fullk_same; [|exact K]. intros a J. apply S. specialize (T a). rewrite cnt_app in T. apply cnt_in in J. lia.
    + eapply fulls_same; [|exact C]. intros a J. apply S. specialize (T a). rewrite cnt_app in T. apply cnt_in in J. lia.
Qed.

(** *** Allocating *)
Definition grown (m m' : mem) : Prop := forall a, a < length m -> nth_error m' a = nth_error m a.
Lemma alloc_ok s t kf L H bs m w : inv s t kf L H -> alloc (mm s) bs = (m, w) ->
  inv (mk_st m (env s) (objs s)) t kf (addr w ++ L) H /\ read m w = Ok bs /\ full m w /\ fst w = N.of_nat (length bs) /\ grown (mm s) m /\ (forall a, In a (addr w) -> length (mm s) <= a).
Proof.
  intros I E. destruct bs as [|b bs].
  1: injection E as <- <-.
  - cbn [addr fst]. split; [destruct s; exact I|]. split; [reflexivity|]. split; [left; reflexivity|]. split; [reflexivity|]. split; [intros a _; reflexivity|]. intros a [].
  - set (bb := b :: bs : bytes) in *.
    change (alloc (mm s) bb) with (mm s ++ [Some bb], (N.of_nat (length bb), PAt (length (mm s)) 0)) in E.
    assert (BN : length bb <> 0) by discriminate. clearbody bb. injection E as <- <-. unfold read, addr. cbn [fst snd]. destruct (N.of_nat (length bb)) as [|n] eqn:Q; [lia|].
    assert (NE : nth_error (mm s ++ [Some bb]) (length (mm s)) = Some (Some bb)) by (rewrite nth_app1; destruct (Nat.eq_dec _ _); [reflexivity|lia]).
    rewrite NE. replace (N.pos n <=? N.of_nat (length bb - 0))%N with true by (symmetry; apply N.leb_le; lia).
    split; [|split; [|split; [|split; [|split]]]].
    + apply (mem_ok s t kf L H _ _ I).
      * intros a P. rewrite nth_app1. destruct (Nat.eq_dec a (length (mm s))) as [->|]; [|reflexivity]. exfalso.
        pose proof (all _ _ _ _ _ I (length (mm s))) as T. unfold live in T. rewrite (proj2 (nth_error_None _ _)) in T by lia. lia.
      * intros a. pose proof (all _ _ _ _ _ I a) as T. unfold live in *. rewrite nth_app1. cbn [app count_occ].
        destruct (Nat.eq_dec (length (mm s)) a), (Nat.eq_dec a (length (mm s))); try lia. subst a.
        rewrite (proj2 (nth_error_None _ _)) in T by lia. lia.
    + cbn [skipn]. f_equal. replace (N.to_nat (N.pos n)) with (length bb) by (rewrite <- Q; symmetry; apply Nnat.Nat2N.id). apply firstn_all.
    + right. exists (length (mm s)), bb. split; [reflexivity|]. split; [exact NE|]. cbn [fst]. symmetry. exact Q.
    + reflexivity.
    + intros a LT. rewrite nth_app1. destruct (Nat.eq_dec a (length (mm s))); [lia|reflexivity].
    + intros a [<-|[]]. lia.
Qed.
(** *** Freeing *)
Lemma dealloc_ok s t kf L H w : inv s t kf (addr w ++ L) H -> full (mm s) w ->
  exists m, dealloc (mm s) w = Ok m /\ inv (mk_st m (env s) (objs s)) t kf L H /\ same (mm s) m L.
Proof.
  intros I F. destruct w as [n p]. unfold full, dealloc, addr in *. cbn [fst snd] in *. destruct n as [|n].
  { exists (mm s). split; [reflexivity|]. split; [destruct s; exact I|]. intros a _. reflexivity. }
  destruct F as [Z|(a & bs & -> & E & LN)]; [discriminate Z|]. rewrite E. replace (N.pos n =? N.of_nat (length bs))%N with true by (symmetry; apply N.eqb_eq; lia).
  cbn [app] in I. exists (set (mm s) a None). split; [reflexivity|].
  assert (T : forall c, tenv (env s) c + tobj kf 0 (objs s) c + cnt (a :: L) c = live (mm s) c) by apply (all _ _ _ _ _ I).
  assert (TA : live (mm s) a = 1) by (unfold live; rewrite E; reflexivity).
  split.
  - apply (mem_ok s t kf (a :: L) H _ _ I).
    + intros c P. rewrite nth_set. destruct (Nat.eq_dec a c) as [<-|]; [|reflexivity]. specialize (T a). cbn [count_occ] in T. destruct (Nat.eq_dec a a); lia.
    + intros c. specialize (T c). cbn [count_occ] in T. unfold live in *. rewrite nth_set. destruct (Nat.eq_dec a c) as [<-|]; [|exact T].
      rewrite E in *. lia.
  - intros c J. rewrite nth_set. destruct (Nat.eq_dec a c) as [<-|]; [|reflexivity]. apply cnt_in in J. specialize (T a). cbn [count_occ] in T. destruct (Nat.eq_dec a a); lia.
Qed.
Lemma drop_cells_ok : forall l s t kf L H, inv s t kf (fcs l ++ L) H -> fulls (mm s) l ->
  exists m, drop_cells (mm s) l = Ok m /\ inv (mk_st m (env s) (objs s)) t kf L H /\ same (mm s) m L.
Proof.
  assert (C : forall c s t kf L H, inv s t kf (fpc c ++ L) H -> fullc (mm s) c ->
    exists m, drop_cell (mm s) c = Ok m /\ inv (mk_st m (env s) (objs s)) t kf L H /\ same (mm s) m L).
  { induction c as [i c w|l IH] using cell_ind'; intros s t kf L H I F.
    - cbn [fpc fullc drop_cell] in *. destruct (wide c).
      + apply dealloc_ok; auto. apply F. reflexivity.
      + exists (mm s). split; [reflexivity|]. split; [destruct s; exact I|]. intros a _. reflexivity.
    - rewrite fpc_list in I. rewrite full_list in F. rewrite drop_list. revert s t kf L H I F.
      induction IH as [|x l X IH IH2]; intros s t kf L H I F; cbn [fcs drop_cells fulls] in *.
      + exists (mm s). split; [reflexivity|]. split; [destruct s; exact I|]. intros a _. reflexivity.
      + destruct F as [F1 F2]. rewrite <- app_assoc in I. destruct (X _ _ _ _ _ I F1) as (m1 & E1 & I1 & S1). rewrite E1.
        assert (F3 : fulls m1 l) by (eapply fulls_same; [|exact F2]; intros a J; apply S1; apply in_or_app; auto).
        destruct (IH2 _ _ _ _ _ I1 F3) as (m2 & E2 & I2 & S2). cbn [mm] in *. exists m2. split; [exact E2|]. split; [exact I2|].
        intros a J. rewrite S2 by exact J. apply S1. apply in_or_app; auto. }
  induction l as [|x l IH]; intros s t kf L H I F; cbn [fcs drop_cells fulls] in *.
  - exists (mm s). split; [reflexivity|]. split; [destruct s; exact I|]. intros a _. reflexivity.
  - destruct F as [F1 F2]. rewrite <- app_assoc in I. destruct (C x _ _ _ _ _ I F1) as (m1 & E1 & I1 & S1). rewrite E1.
    assert (F3 : fulls m1 l) by (eapply fulls_same; [|exact F2]; intros a J; apply S1; apply in_or_app; auto).
    destruct (IH _ _ _ _ _ I1 F3) as (m2 & E2 & I2 & S2). cbn [mm] in *. exists m2. split; [exact E2|]. split; [exact I2|].
    intros a J. rewrite S2 by exact J. apply S1. apply in_or_app; auto.
Qed.
Lemma drop_cell_ok c s t kf L H : inv s t kf (fpc c ++ L) H -> fullc (mm s) c ->
  exists m, drop_cell (mm s) c = Ok m /\ inv (mk_st m (env s) (objs s)) t kf L H /\ same (mm s) m L.
Proof.
  intros I F. destruct (drop_cells_ok [c] s t kf L H) as (m & E & R).
  - cbn [fcs]. rewrite app_nil_r. exact I.
  - cbn [fulls]. auto.
  - cbn [drop_cells] in E. destruct (drop_cell (mm s) c) as [m'| |]; try discriminate E. injection E as <-. exists m'. auto.
Qed.
Lemma drop_key_ok k s t kf L H : inv s t kf (fpk k ++ L) H -> fullk (mm s) k ->
  exists m, drop_key (mm s) k = Ok m /\ inv (mk_st m (env s) (objs s)) t kf L H /\ same (mm s) m L.
Proof.
  unfold fpk, fullk, drop_key. destruct (wide (k_cls k)).
  - intros I F. apply dealloc_ok; auto.
  - intros I _. exists (mm s). split; [reflexivity|]. split; [destruct s; exact I|]. intros a _. reflexivity.
Qed.
Lemma drop_lit_ok l s t kf L H : inv s t kf (fpv (VLit l) ++ L) H -> fullv (mm s) (VLit l) ->
  exists m, drop_lit (mm s) l = Ok m /\ inv (mk_st m (env s) (objs s)) t kf L H /\ same (mm s) m L.
Proof.
  cbn [fpv fullv]. unfold drop_lit. destruct (l_heap l).
  - intros I F. apply dealloc_ok; auto. apply F. reflexivity.
  - intros I _. exists (mm s). split; [reflexivity|]. split; [destruct s; exact I|]. intros a _. reflexivity.
Qed.

(** *** Variables *)
Lemma unborrowed_spec s v : unborrowed s v = true -> forall u x l, nth_error (env s) u = Some (Some (x, l)) -> ~ In v l.
Proof.
  unfold unborrowed. intros U u x l E J. rewrite forallb_forall in U. specialize (U _ (nth_error_In _ _ E)). cbn in U.
  apply negb_true_iff in U. apply not_true_iff_false in U. apply U. apply existsb_exists. exists v. split; [exact J|apply Nat.eqb_refl].
Qed.
Definition hold (v : val) : list nat := match v with VRow h => [h_id h] | _ => [] end.
Lemma use_ok s t kf L H v x l : inv s t kf L H -> use s v = Ok (x, l) ->
  nth_error (env s) v = Some (Some (x, l)) /\ exists y, avar t v = Some y /\ show (mm s) x = Ok y /\ fullv (mm s) x.
Proof.
  intros I E. unfold use in E. destruct (nth_error (env s) v) as [[b|]|] eqn:N; try discriminate E. injection E as ->. split; [reflexivity|].
  destruct (v_show _ _ _ _ _ I _ _ _ N) as (y & Y & S). exists y. unfold avar. rewrite Y. split; [reflexivity|]. split; [exact S|]. eapply v_full; eassumption.
Qed.
Lemma move_ok s t kf L H v x l s' : inv s t kf L H -> move s v = Ok (x, l, s') ->
  nth_error (env s) v = Some (Some (x, l)) /\ s' = mk_st (mm s) (set (env s) v None) (objs s) /\
  (exists y, avar t v = Some y /\ show (mm s) x = Ok y) /\ fullv (mm s) x /\ inv s' (without t v) kf (fpv x ++ L) (hold x ++ H) /\
  (forall u, In u l -> u < length (env s) /\ exists b, nth_error (env s') u = Some (Some b)) /\ (forall a, In a (bpv x) -> exists u, In u l /\ lender (env s') a u).
Proof.
  intros I E. unfold move in E. destruct (use s v) as [b| |] eqn:U; try discriminate E. destruct (unborrowed s v) eqn:B; [|discriminate E].
  injection E as -> <-. destruct (use_ok _ _ _ _ _ _ _ _ I U) as (N & y & Y & S & F). split; [exact N|]. split; [reflexivity|].
  split; [exists y; auto|]. split; [exact F|]. pose proof (unborrowed_spec _ _ B) as UB.
  destruct I as [A1 A2 A3 A4 A5 A6 A7 A8 A9 A10 A11 A12].
  assert (KEEP : forall u z l', nth_error (set (env s) v None) u = Some (Some (z, l')) -> u <> v /\ nth_error (env s) u = Some (Some (z, l'))).
  { intros u z l' Q. rewrite nth_set in Q. destruct (Nat.eq_dec v u) as [->|D]; [destruct (nth_error (env s) u); discriminate Q|]. split; [lia|exact Q]. }
  assert (LEND : forall a u z l', nth_error (env s) z = Some (Some l') -> In u (snd l') -> lender (env s) a u -> lender (set (env s) v None) a u).
  { intros a u z [w l'] Q J (y' & l2 & Q2 & K). cbn [snd] in J. exists y', l2. split; [|exact K]. rewrite nth_set. destruct (Nat.eq_dec v u) as [->|]; [|exact Q2].
    destruct (UB _ _ _ Q J). }
  split; [|split].
  - constructor; cbn [mm env objs without vars arows].
    + rewrite !set_len. exact A1.
    + intros u z l' Q. apply KEEP in Q as [D Q]. destruct (A2 _ _ _ Q) as (y' & Y' & S'). exists y'. split; [|exact S']. rewrite nth_set. destruct (Nat.eq_dec v u); [lia|exact Y'].
    + intros u z l' Q. apply KEEP in Q as [D Q]. eapply A3; exact Q.
    + intros u h l' Q. apply KEEP in Q as [D Q]. eapply A4; exact Q.
    + intros u z l' w Q J. apply KEEP in Q as [D Q]. destruct (A5 _ _ _ _ Q J) as (LT & b & W). split; [exact LT|]. exists b. rewrite nth_set.
      destruct (Nat.eq_dec v w) as [->|]; [|exact W]. destruct (UB _ _ _ Q J).
    + intros u z l' a Q J. apply KEEP in Q as [D Q]. destruct (A6 _ _ _ _ Q J) as (w & W & K). exists w. split; [exact W|]. eapply LEND; [exact Q|exact W|exact K].
    + exact A7.
    + exact A8.
    + exact A9.
    + intros i r R. destruct (A10 i r R) as [C P]. split; [|exact P]. pose proof (handles_set _ _ _ None i N) as HS. cbn [isrow] in HS.
      rewrite C, cnt_app. destruct x; cbn [hold count_occ] in *; try lia.
    + intros i J. apply in_app_or in J as [J|J]; [|auto]. destruct x; cbn [hold] in J; try contradiction. destruct J as [<-|[]]. eapply A4; exact N.
    + intros a. specialize (A12 a). pose proof (tenv_set _ _ _ None a N) as TS. cbn [fpb count_occ] in TS. rewrite cnt_app. lia.
  - intros u J. destruct (A5 _ _ _ _ N J) as (LT & b & W). split; [apply nth_lt in N; lia|]. exists b. cbn [env]. rewrite nth_set. destruct (Nat.eq_dec v u); [lia|exact W].
  - intros a J. destruct (A6 _ _ _ _ N J) as (w & W & K). exists w. split; [exact W|]. cbn [env]. eapply LEND; [exact N|exact W|exact K].
Qed.
Lemma push_ok s t kf L H x l y m : inv s t kf (fpv x ++ L) (hold x ++ H) -> m = mm s -> show (mm s) x = Ok y -> fullv (mm s) x ->
  (forall h, x = VRow h -> h_key h = kf (h_id h)) ->
  (forall u, In u l -> u < length (env s) /\ exists b, nth_error (env s) u = Some (Some b)) -> (forall a, In a (bpv x) -> exists u, In u l /\ lender (env s) a u) ->
  exists s', give s m x l = Ok (s', None) /\ s' = mk_st m (env s ++ [Some (x, l)]) (objs s) /\ inv s' (plus t y) kf L H.
Proof.
  intros [A1 A2 A3 A4 A5 A6 A7 A8 A9 A10 A11 A12] -> S F HX LL BB. eexists. split; [reflexivity|]. split; [reflexivity|].
  assert (LEND : forall a u, lender (env s) a u -> lender (env s ++ [Some (x, l)]) a u).
  { intros a u (y' & l2 & Q & K). exists y', l2. split; [|exact K]. rewrite nth_error_app1; [exact Q|]. eapply nth_lt; exact Q. }
  constructor; cbn [mm env objs plus vars arows].
  - rewrite !app_length. cbn [length]. lia.
  - intros v z l' Q. rewrite nth_app1 in Q. rewrite nth_app1. destruct (Nat.eq_dec v (length (env s))) as [->|D].
    + injection Q as <- <-. exists y. rewrite A1. destruct (Nat.eq_dec _ _); [auto|lia].
    + destruct (A2 _ _ _ Q) as (y' & Y & S'). exists y'. split; [|exact S']. destruct (Nat.eq_dec v (length (vars t))); [lia|exact Y].
  - intros v z l' Q. rewrite nth_app1 in Q. destruct (Nat.eq_dec v (length (env s))) as [->|D]; [injection Q as <- <-; exact F|eapply A3; exact Q].
  - intros v h l' Q. rewrite nth_app1 in Q. destruct (Nat.eq_dec v (length (env s))) as [->|D]; [|eapply A4; exact Q].
    injection Q as -> <-. split; [apply HX; reflexivity|]. apply A11. left. reflexivity.
  - intros v z l' u Q J. rewrite nth_app1 in Q. assert (W : u < v /\ exists b, nth_error (env s) u = Some (Some b)).
    { destruct (Nat.eq_dec v (length (env s))) as [->|D]; [injection Q as <- <-; apply LL; exact J|eapply A5; eassumption]. }
    destruct W as (LT & b & W). split; [exact LT|]. exists b. rewrite nth_error_app1; [exact W|]. eapply nth_lt; exact W.
  - intros v z l' a Q J. rewrite nth_app1 in Q. destruct (Nat.eq_dec v (length (env s))) as [->|D].
    + injection Q as <- <-. destruct (BB a J) as (u & U & K). exists u. auto.
    + destruct (A6 _ _ _ _ Q J) as (u & U & K). exists u. auto.
  - exact A7.
  - exact A8.
  - exact A9.
  - intros i r R. destruct (A10 i r R) as [C P]. split; [|exact P]. rewrite handles_app. rewrite cnt_app in C.
    destruct x; cbn [isrow hold count_occ] in *; lia.
  - intros i J. apply A11. apply in_or_app. right. exact J.
  - intros a. specialize (A12 a). rewrite tenv_app. cbn [fpb]. rewrite cnt_app in A12. lia.
Qed.
(** a variable that is not borrowed gets another value *)
Lemma refill_ok s t kf L H v x l y : inv s t kf (fpv x ++ L) H -> nth_error (env s) v = Some None -> show (mm s) x = Ok y -> fullv (mm s) x -> hold x = [] -> bpv x = [] ->
  (forall u, In u l -> u < v /\ exists b, nth_error (env s) u = Some (Some b)) ->
  inv (mk_st (mm s) (set (env s) v (Some (x, l))) (objs s)) (mk_ast (set (vars t) v (Some y)) (arows t)) kf L H.
Proof.
  intros [A1 A2 A3 A4 A5 A6 A7 A8 A9 A10 A11 A12] N S F HX BX LL.
  assert (LV : v < length (vars t)) by (rewrite <- A1; eapply nth_lt; exact N).
  assert (LEND : forall a u, lender (env s) a u -> lender (set (env s) v (Some (x, l))) a u).
  { intros a u (y' & l2 & Q & K). exists y', l2. split; [|exact K]. rewrite nth_set. destruct (Nat.eq_dec v u) as [->|]; [congruence|exact Q]. }
  constructor; cbn [mm env objs vars arows].
  - rewrite !set_len. exact A1.
  - intros u z l' Q. rewrite nth_set in Q. rewrite nth_set. destruct (Nat.eq_dec v u) as [->|D].
    + rewrite N in Q. injection Q as <- <-. exists y. destruct (nth_error (vars t) u) eqn:E; [auto|]. apply nth_error_None in E. lia.
    + eapply A2; exact Q.
  - intros u z l' Q. rewrite nth_set in Q. destruct (Nat.eq_dec v u) as [->|D]; [rewrite N in Q; injection Q as <- <-; exact F|eapply A3; exact Q].
  - intros u h l' Q. rewrite nth_set in Q. destruct (Nat.eq_dec v u) as [->|D]; [rewrite N in Q; injection Q as -> <-; discriminate HX|eapply A4; exact Q].
  - intros u z l' w Q J. rewrite nth_set in Q. assert (W : w < u /\ exists b, nth_error (env s) w = Some (Some b)).
    { destruct (Nat.eq_dec v u) as [->|D]; [rewrite N in Q; injection Q as <- <-; apply LL; exact J|eapply A5; eassumption]. }
    destruct W as (LT & b & W). split; [exact LT|]. exists b. rewrite nth_set. destruct (Nat.eq_dec v w) as [->|]; [congruence|exact W].
  - intros u z l' a Q J. rewrite nth_set in Q. destruct (Nat.eq_dec v u) as [->|D].
    + rewrite N in Q. injection Q as <- <-. rewrite BX in J. contradiction.
    + destruct (A6 _ _ _ _ Q J) as (w & W & K). exists w. auto.
  - exact A7.
  - exact A8.
  - exact A9.
  - intros i r R. destruct (A10 i r R) as [C P]. split; [|exact P]. pose proof (handles_set _ _ _ (Some (x, l)) i N) as HS. cbn [isrow] in HS.
    destruct x; try lia. discriminate HX.
  - exact A11.
  - intros a. specialize (A12 a). pose proof (tenv_set _ _ _ (Some (x, l)) a N) as TS. cbn [fpb count_occ] in TS. rewrite cnt_app in A12. lia.
Qed.

(** *** Rows *)
Lemma set_set {A} (l : list A) : forall i a b, set (set l i a) i b = set l i b.
Proof. induction l as [|c l IH]; intros [|i] a b; cbn [set]; auto. rewrite IH. reflexivity. Qed.
(** other cells, other count *)
Lemma obj_set_ok s t kf L L' H H' i r k l0 n cs l : inv s t kf L H -> nth_error (objs s) i = Some (Some r) -> nth_error (arows t) i = Some (k, l0) ->
  fulls (mm s) cs -> read_cells (mm s) cs = Ok l -> (forall a, cnt L' a + cnt (fcs cs) a = cnt L a + cnt (fcs (r_cells r)) a) ->
  (forall j, j <> i -> cnt H' j = cnt H j) -> n + cnt H i = r_count r + cnt H' i -> 0 < n ->
  inv (mk_st (mm s) (env s) (set (objs s) i (Some (mk_robj n cs)))) (mk_ast (vars t) (set (arows t) i (k, l))) kf L' H'.
Proof.
  intros [A1 A2 A3 A4 A5 A6 A7 A8 A9 A10 A11 A12] N NA F RC CL CH CN P.
  constructor; cbn [mm env objs vars arows]; auto.
  - intros v h l' Q. destruct (A4 _ _ _ Q) as (E & r' & R). split; [exact E|]. rewrite nth_set. destruct (Nat.eq_dec i (h_id h)) as [<-|]; [rewrite N; eexists; reflexivity|eexists; exact R].
  - rewrite !set_len. exact A7.
  - intros j r' R. rewrite nth_set in R. rewrite nth_set. destruct (Nat.eq_dec i j) as [<-|].
    + rewrite N in R. injection R as <-. rewrite NA. exists k, l. split; [reflexivity|]. destruct (A8 _ _ N) as (k' & l' & Q & K & _). rewrite NA in Q. injection Q as <- <-. auto.
    + apply A8. exact R.
  - intros j r' R. rewrite nth_set in R. destruct (Nat.eq_dec i j) as [<-|]; [|apply A9; exact R].
    rewrite N in R. injection R as <-. split; [apply (A9 _ _ N)|exact F].
  - intros j r' R. rewrite nth_set in R. destruct (Nat.eq_dec i j) as [<-|D].
    + rewrite N in R. injection R as <-. cbn [r_count]. destruct (A10 _ _ N) as [C _]. split; [lia|exact P].
    + rewrite CH by lia. apply A10. exact R.
  - intros j J. rewrite nth_set. destruct (Nat.eq_dec i j) as [<-|D]; [rewrite N; eexists; reflexivity|]. apply A11. apply cnt_in. rewrite <- CH by lia. apply cnt_in. exact J.
  - intros a. specialize (A12 a). pose proof (tobj_set kf _ 0 _ _ (Some (mk_robj n cs)) a N) as T. cbn [fpo r_cells Nat.add] in T. rewrite !cnt_app in T. specialize (CL a). lia.
Qed.
(** the last handle is gone *)
Lemma obj_kill_ok s t kf L H i r : inv s t kf L (i :: H) -> nth_error (objs s) i = Some (Some r) -> r_count r = 1 ->
  inv (mk_st (mm s) (env s) (set (objs s) i None)) t kf (fpk (kf i) ++ fcs (r_cells r) ++ L) H.
Proof.
  intros [A1 A2 A3 A4 A5 A6 A7 A8 A9 A10 A11 A12] N C1. destruct (A10 _ _ N) as [C _]. cbn [count_occ] in C. destruct (Nat.eq_dec i i); [|lia].
  constructor; cbn [mm env objs]; auto.
  - intros v h l' Q. destruct (A4 _ _ _ Q) as (E & r' & R). split; [exact E|]. rewrite nth_set. destruct (Nat.eq_dec i (h_id h)) as [->|]; [|eexists; exact R].
    pose proof (handles_in _ _ _ (h_id h) Q) as HI. cbn [isrow] in HI. destruct (Nat.eq_dec (h_id h) (h_id h)); lia.
  - rewrite set_len. exact A7.
  - intros j r' R. rewrite nth_set in R. destruct (Nat.eq_dec i j) as [<-|]; [rewrite N in R; discriminate R|]. apply A8. exact R.
  - intros j r' R. rewrite nth_set in R. destruct (Nat.eq_dec i j) as [<-|]; [rewrite N in R; discriminate R|]. apply A9. exact R.
  - intros j r' R. rewrite nth_set in R. destruct (Nat.eq_dec i j) as [<-|]; [rewrite N in R; discriminate R|]. destruct (A10 _ _ R) as [C2 P2]. split; [|exact P2].
    cbn [count_occ] in C2. destruct (Nat.eq_dec i j); [lia|exact C2].
  - intros j J. rewrite nth_set. destruct (Nat.eq_dec i j) as [<-|D]; [|apply A11; right; exact J]. apply cnt_in in J. lia.
  - intros a. specialize (A12 a). pose proof (tobj_set kf _ 0 _ _ None a N) as T. cbn [fpo r_cells Nat.add count_occ] in T. rewrite !cnt_app in *. lia.
Qed.
(** a new row *)
Definition upd (kf : nat -> key) (i : nat) (k : key) : nat -> key := fun j => if Nat.eq_dec i j then k else kf j.
Lemma obj_new_ok s t kf L H k cs x l : inv s t kf (fpk k ++ fcs cs ++ L) H -> fullk (mm s) k -> fulls (mm s) cs ->
  read_word (mm s) (k_cls k) (k_word k) = Ok x -> read_cells (mm s) cs = Ok l ->
  inv (mk_st (mm s) (env s) (objs s ++ [Some (mk_robj 1 cs)])) (mk_ast (vars t) (arows t ++ [(x, l)])) (upd kf (length (objs s)) k) L (length (objs s) :: H).
Proof.
  intros [A1 A2 A3 A4 A5 A6 A7 A8 A9 A10 A11 A12] FK FC RK RC.
  assert (OLD : forall j o, nth_error (objs s) j = Some o -> upd kf (length (objs s)) k j = kf j).
  { intros j o R. apply nth_lt in R. unfold upd. destruct (Nat.eq_dec _ _); [lia|reflexivity]. }
  assert (NEW : upd kf (length (objs s)) k (length (objs s)) = k) by (unfold upd; destruct (Nat.eq_dec _ _); [reflexivity|lia]).
  assert (NH : handles (env s) (length (objs s)) = 0).
  { clear - A4. assert (G : forall e, (forall v h l, nth_error e v = Some (Some (VRow h, l)) -> h_id h < length (objs s)) -> handles e (length (objs s)) = 0).
    { induction e as [|b e IH]; intros B; cbn [handles]; [reflexivity|]. rewrite IH; [|intros v h l Q; apply (B (S v) h l Q)].
      destruct b as [[x l]|]; cbn [isrow]; [|reflexivity]. destruct x; try reflexivity. specialize (B 0 h l eq_refl). destruct (Nat.eq_dec _ _); [lia|reflexivity]. }
    apply G. intros v h l Q. destruct (A4 _ _ _ Q) as (_ & r & R). eapply nth_lt; exact R. }
  assert (NF : cnt H (length (objs s)) = 0).
  { destruct (cnt H (length (objs s))) eqn:E; [reflexivity|]. assert (J : In (length (objs s)) H) by (apply cnt_in; lia). destruct (A11 _ J) as (r & R). apply nth_lt in R. lia. }
  constructor; cbn [mm env objs vars arows]; auto.
  - intros v h l' Q. destruct (A4 _ _ _ Q) as (E & r & R). rewrite (OLD _ _ R). split; [exact E|]. exists r. rewrite nth_error_app1; [exact R|]. eapply nth_lt; exact R.
  - rewrite !app_length. cbn [length]. lia.
  - intros j r R. rewrite nth_app1 in R. rewrite nth_app1. rewrite <- A7. destruct (Nat.eq_dec j (length (objs s))) as [->|].
    + injection R as <-. cbn [r_cells]. rewrite NEW. exists x, l. auto.
    + rewrite (OLD _ _ R). apply A8. exact R.
  - intros j r R. rewrite nth_app1 in R. destruct (Nat.eq_dec j (length (objs s))) as [->|].
    + injection R as <-. rewrite NEW. auto.
    + rewrite (OLD _ _ R). apply A9. exact R.
  - intros j r R. rewrite nth_app1 in R. cbn [count_occ]. destruct (Nat.eq_dec j (length (objs s))) as [->|D].
    + injection R as <-. cbn [r_count]. destruct (Nat.eq_dec _ _); lia.
    + destruct (Nat.eq_dec (length (objs s)) j); [lia|]. apply A10. exact R.
  - intros j [<-|J]; rewrite nth_app1; [destruct (Nat.eq_dec _ _); [eexists; reflexivity|lia]|].
    destruct (A11 _ J) as (r & R). destruct (Nat.eq_dec j (length (objs s))); [eexists; reflexivity|eexists; exact R].
  - intros a. specialize (A12 a). rewrite tobj_app. cbn [Nat.add fpo r_cells]. rewrite NEW. rewrite (tobj_ext _ kf).
    + rewrite !cnt_app in *. lia.
    + intros i J. unfold upd. destruct (Nat.eq_dec _ _); [lia|reflexivity].
Qed.
