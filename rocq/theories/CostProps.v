(** C89: the work of finding a row. *)
From Coq Require Import List Arith NArith Bool Lia.
From Coq Require Import Strings.String.
From Verif Require Import Bytes DataModel RowModel RowTable KeyModel KeySpec KeyProofs MtModel MtSpec MtProofs MtProps CostModel CostProofs.
Import ListNotations.
Local Open Scope nat_scope.

(** the keys an index holds after a history, each once *)
Definition held {K V} (keq : K -> K -> bool) (os : list (op K V)) (ks : list K) : Prop :=
  NoDup ks /\ forall k, In k ks <-> last_value K V keq k os <> None.

(** counting changes nothing: the counted functions are those of C38 *)
Theorem C89_counted : forall K V (keq : K -> K -> bool) (hash : K -> N) n level h t k e m,
  option_map fst (lookup_c K V keq n h t k) = lookup K V keq n h t k /\
  option_map fst (patch_c K V keq hash n level t e m) = patch K V keq hash n level t e m.
Proof. intros. split; [apply lookup_erase|apply patch_erase]. Qed.

Lemma held_map {K V} (keq : K -> K -> bool) (HK : decides keq) hash (os : list (op K V)) ks s :
  Rep K V hash s (fst (srun K V keq [] os)) -> held keq os ks ->
  forall f : K -> bool, List.length (filter f ks) = List.length (filter (fun e => f (fst e)) (fst (srun K V keq [] os))).
Proof.
  intros R (ND & HH) f. set (l := fst (srun K V keq [] os)) in *. pose proof (rep_nodup _ _ _ _ _ R) as NL.
  assert (SAME : forall k, In k ks <-> In k (map fst l)).
  { intros k. rewrite HH. pose proof (val_run K V keq HK k os []) as F. cbn in F. unfold last_value. rewrite <- F. fold l. pose proof (sfind_none K V keq HK k l) as S.
    destruct (sfind K V keq k l) as [e|] eqn:Q; cbn.
    - split; [|discriminate]. intros _. apply (sfind_some K V keq HK) in Q. destruct Q as (I & <-). apply in_map. exact I.
    - split; [intros X; congruence|intros I; exfalso; apply (proj1 S eq_refl I)]. }
  assert (FM : map fst (filter (fun e => f (fst e)) l) = filter f (map fst l)) by (clear; induction l as [|e l IH]; [reflexivity|]; cbn; destruct (f (fst e)); cbn; rewrite IH; reflexivity).
  rewrite <- (map_length fst), FM. apply Nat.le_antisymm; (apply NoDup_incl_length; [apply NoDup_filter; assumption|]); intros k I; apply filter_In in I; apply filter_In; (split; [apply SAME; exact (proj1 I)|exact (proj2 I)]).
Qed.

(** The work of a lookup after any history: at most the number of stored keys with the hash of the key (or one, for a
    stranger alone on its path); a key that is not there is compared with all of them. *)
Theorem C89_lookup : forall K V (keq : K -> K -> bool) (hash : K -> N) (os : list (op K V)) ks k,
  decides keq -> (forall x, hash x < 2 ^ 64)%N -> held keq os ks ->
  exists s w, option_map fst (exec_all K V keq hash (idx_new K V) os) = Some s /\ lookup_work K V keq hash s k = Some w /\
    w <= Nat.max 1 (List.length (filter (fun x => N.eqb (hash x) (hash k)) ks)) /\
    (~ In k ks -> List.length (filter (fun x => N.eqb (hash x) (hash k)) ks) <= w).
Proof.
  intros K V keq hash os ks k HK H64 HH. destruct (exec_all_ok K V keq HK hash os (idx_new K V) [] (rep_new K V hash)) as (s & E & R).
  pose proof (held_map keq HK hash os ks s R HH) as LE. destruct (lookup_work_ok K V keq HK hash H64 s _ k R) as (w & W & A & B).
  exists s, w. rewrite E. split; [reflexivity|]. split; [exact W|]. rewrite (LE (fun x => N.eqb (hash x) (hash k))). split; [exact A|]. intros NI. apply B.
  intros I. apply NI. apply (proj2 HH). pose proof (val_run K V keq HK k os []) as F. cbn in F. unfold last_value. rewrite <- F. destruct (sfind K V keq k (fst (srun K V keq [] os))) eqn:Q; [discriminate|].
  exfalso. exact (proj1 (sfind_none K V keq HK k _) Q I).
Qed.

(** ** Primary keys *)
(** The hash of a key is what the hasher [H] makes of the calls that the code makes for it (C88). *)
Definition hashed (H : list hcall -> N) (hash : pkey -> N) : Prop :=
  (forall v, hash v < 2 ^ 64)%N /\ forall m k v f, is_key m k v -> key_feed m k = Some f -> hash v = H f.
Lemma some_key v : kind_of v <> None -> exists m k, is_key m k v.
Proof.
  intros N. destruct v as [w|w|b|b|]; [| | | |contradiction N; reflexivity].
  - exists (fun _ => None), (mk_key TuUInt w zero_block). constructor.
  - exists (fun _ => None), (mk_key TuSInt w zero_block). constructor.
  - exists (fun _ => Some b), (mk_key TuBin (Bytes.len b) 1%N). constructor. split; [discriminate|right; reflexivity].
  - exists (fun _ => Some b), (mk_key TuStr (Bytes.len b) 1%N). constructor. split; [discriminate|right; reflexivity].
Qed.
Lemma hashed_feed H hash v : hashed H hash -> kind_of v <> None -> hash v = H (feed_of v).
Proof. intros (_ & HH) N. destruct (some_key v N) as (m & k & I). apply (HH m k v); [exact I|apply key_feed_ok; exact I]. Qed.
Definition of_bytes (v : pkey) : Prop := kind_of v = Some KBinary \/ kind_of v = Some KString.

(** the hasher gives different results for different calls, among those made for keys of [ks] *)
Definition separates (H : list hcall -> N) (ks : list pkey) : Prop :=
  forall x y m m' a b f g, In x ks -> In y ks -> is_key m a x -> is_key m' b y -> key_feed m a = Some f -> key_feed m' b = Some g -> H f = H g -> f = g.

(** Binary and string keys: with a hasher that does not give two of the stored keys and the key the same result, a
    lookup compares the key with at most one stored key. *)
Theorem C89_bytes_partial : forall V (H : list hcall -> N) hash (os : list (op pkey V)) ks k,
  hashed H hash -> separates H (k :: ks) -> held pkey_eqb os ks -> of_bytes k -> (forall x, In x ks -> of_bytes x) ->
  exists s w, option_map fst (exec_all pkey V pkey_eqb hash (idx_new pkey V) os) = Some s /\ lookup_work pkey V pkey_eqb hash s k = Some w /\ w <= 1.
Proof.
  intros V H hash os ks k HS INJ HH BK BKS. destruct (C89_lookup pkey V pkey_eqb hash os ks k pkey_eqb_eq (proj1 HS) HH) as (s & w & E & W & A & _). exists s, w. split; [exact E|]. split; [exact W|].
  assert (O : forall x, In x ks -> hash x = hash k -> x = k).
  { intros x I Q. assert (NK : kind_of k <> None) by (destruct BK as [BK|BK]; rewrite BK; discriminate). pose proof (BKS x I) as BX. assert (NX : kind_of x <> None) by (destruct BX as [BX|BX]; rewrite BX; discriminate).
    rewrite (hashed_feed H hash x HS NX), (hashed_feed H hash k HS NK) in Q. destruct (some_key x NX) as (m & a & IA). destruct (some_key k NK) as (m' & b & IB).
    apply (INJ x k m m' a b _ _ (or_intror I) (or_introl eq_refl) IA IB (key_feed_ok _ _ _ IA) (key_feed_ok _ _ _ IB)) in Q. clear - Q BX BK. unfold of_bytes in BX, BK. destruct x, k; cbn in BX, BK; try (destruct BX as [BX|BX]; discriminate BX); try (destruct BK as [BK|BK]; discriminate BK); injection Q; intros; try discriminate; subst; reflexivity. }
  assert (L : List.length (filter (fun x => N.eqb (hash x) (hash k)) ks) <= 1); [|lia].
  apply (NoDup_incl_length (l' := [k])); [apply NoDup_filter; exact (proj1 HH)|]. intros x I. apply filter_In in I. destruct I as (I & Q). left. symmetry. apply O; [exact I|]. apply N.eqb_eq. exact Q.
Qed.

(** Integer keys: nothing of the integer goes to the hasher, so whatever the hasher, all keys of an index over unsigned
    (or signed) integers have one hash. Looking up a key that is not there compares it with every stored key. *)
Definition of_ints (v : pkey) (d : kind) : Prop := (d = KUnsigned \/ d = KSigned) /\ kind_of v = Some d.
Lemma ints_hash H hash a b d : hashed H hash -> of_ints a d -> of_ints b d -> hash a = hash b.
Proof.
  intros HS (D & A) (_ & B). rewrite (hashed_feed H hash a HS) by (rewrite A; discriminate). rewrite (hashed_feed H hash b HS) by (rewrite B; discriminate). f_equal.
  destruct D; subst d; destruct a; try discriminate A; destruct b; try discriminate B; reflexivity.
Qed.
Theorem C89_integers : forall V (H : list hcall -> N) hash (os : list (op pkey V)) ks k d,
  hashed H hash -> held pkey_eqb os ks -> of_ints k d -> (forall x, In x ks -> of_ints x d) -> ~ In k ks -> ks <> [] ->
  exists s, option_map fst (exec_all pkey V pkey_eqb hash (idx_new pkey V) os) = Some s /\ lookup_work pkey V pkey_eqb hash s k = Some (List.length ks).
Proof.
  intros V H hash os ks k d HS HH IK IKS NI NE. destruct (C89_lookup pkey V pkey_eqb hash os ks k pkey_eqb_eq (proj1 HS) HH) as (s & w & E & W & A & B). exists s. split; [exact E|]. rewrite W. f_equal.
  assert (F : filter (fun x => N.eqb (hash x) (hash k)) ks = ks).
  { clear - HS IK IKS. induction ks as [|x ks IH]; [reflexivity|]. cbn [filter]. rewrite (ints_hash H hash x k d HS (IKS x (or_introl eq_refl)) IK), N.eqb_refl. f_equal. apply IH. intros y I. apply IKS. right. exact I. }
  rewrite F in A, B. specialize (B NI). destruct ks; [contradiction NE; reflexivity|]. cbn [List.length] in *. lia.
Qed.
(** Inserting a new integer key compares it with every stored key and copies every row of the table. *)
Theorem C89_integer_insert : forall V (H : list hcall -> N) hash (os : list (op pkey V)) ks k v d,
  hashed H hash -> held pkey_eqb os ks -> of_ints k d -> (forall x, In x ks -> of_ints x d) -> ~ In k ks -> ks <> [] ->
  exists s a, option_map fst (exec_all pkey V pkey_eqb hash (idx_new pkey V) os) = Some s /\
    insert_work pkey V pkey_eqb hash s (k, v) = Some (a, List.length ks) /\ List.length ks < a.
Proof.
  intros V H hash os ks k v d HS HH IK IKS NI NE. destruct (exec_all_ok pkey V pkey_eqb pkey_eqb_eq hash os (idx_new pkey V) [] (rep_new pkey V hash)) as (s & E & R).
  pose proof (held_map pkey_eqb pkey_eqb_eq hash os ks s R HH (fun _ => true)) as L. set (l := fst (srun pkey V pkey_eqb [] os)) in *.
  assert (FT : forall A (q : list A), filter (fun _ => true) q = q) by (intros A q; induction q as [|x q IH]; [reflexivity|cbn; rewrite IH; reflexivity]). rewrite !FT in L.
  assert (SAME : forall x, In x (map fst l) -> In x ks).
  { intros x I. apply (proj2 HH). pose proof (val_run pkey V pkey_eqb pkey_eqb_eq x os []) as F. cbn in F. unfold last_value. rewrite <- F. fold l. destruct (sfind pkey V pkey_eqb x l) eqn:Q; [discriminate|].
    exfalso. exact (proj1 (sfind_none pkey V pkey_eqb pkey_eqb_eq x l) Q I). }
  destruct (insert_work_same pkey V pkey_eqb pkey_eqb_eq hash s l (k, v) R) as (a & W & A).
  - intros x I. cbn [fst]. apply (ints_hash H hash _ _ d HS); [|exact IK]. apply IKS. apply SAME. apply in_map. exact I.
  - intros I. apply NI. apply SAME. exact I.
  - intros Z. rewrite Z in L. destruct ks; [apply NE; reflexivity|discriminate L].
  - exists s, a. rewrite E. split; [reflexivity|]. rewrite L. split; [exact W|exact A].
Qed.

(** ** What is false *)
(** The claim for all keys: for every number of rows there is a table where a lookup makes that many comparisons, with
    every hasher. *)
Fixpoint inserts (n : nat) : list (op pkey unit) := match n with 0 => [] | S n => inserts n ++ [OInsert pkey unit (PkUInt (N.of_nat n), tt)] end.
Lemma inserts_held n : held pkey_eqb (inserts n) (map (fun i => PkUInt (N.of_nat i)) (seq 0 n)).
Proof.
  split.
  - apply FinFun.Injective_map_NoDup; [|apply seq_NoDup]. intros a b E. injection E as E. lia.
  - intros k. induction n as [|n IH]; [cbn; split; [intros []|intros X; apply X; reflexivity]|]. cbn [inserts]. unfold last_value in *. rewrite fold_left_app. cbn [fold_left eff fst snd].
    rewrite seq_S, map_app, in_app_iff, IH. cbn [map In plus]. destruct (pkey_eqb k (PkUInt (N.of_nat n))) eqn:E.
    + apply pkey_eqb_eq in E. subst k. split; [intros _|intros _; right; left; reflexivity]. destruct (fold_left _ (inserts n) None); discriminate.
    + split; [|intros X; left; exact X]. intros [X|[X|[]]]; [exact X|]. subst k. rewrite (proj2 (pkey_eqb_eq _ _) eq_refl) in E. discriminate E.
Qed.
Theorem C89_refuted : forall (H : list hcall -> N) hash n, hashed H hash -> 0 < n ->
  exists (os : list (op pkey unit)) k s, option_map fst (exec_all pkey unit pkey_eqb hash (idx_new pkey unit) os) = Some s /\
    (exists ks, held pkey_eqb os ks /\ List.length ks = n) /\ lookup_work pkey unit pkey_eqb hash s k = Some n.
Proof.
  intros H hash n HS P. pose proof (inserts_held n) as HH.
  destruct (C89_integers unit H hash (inserts n) _ (PkUInt (N.of_nat n)) KUnsigned HS HH) as (s & E & W).
  - split; [left; reflexivity|reflexivity].
  - intros x I. apply in_map_iff in I. destruct I as (i & <- & _). split; [left; reflexivity|reflexivity].
  - intros I. apply in_map_iff in I. destruct I as (i & Q & I). injection Q as Q. apply in_seq in I. lia.
  - destruct n; [lia|discriminate].
  - rewrite map_length, seq_length in W. exists (inserts n), (PkUInt (N.of_nat n)), s. split; [exact E|]. split; [|exact W]. eexists. split; [exact HH|]. rewrite map_length, seq_length. reflexivity.
Qed.

(** * Cases *)
(** a hasher over the calls, and what it makes of keys *)
Definition ex_call (c : hcall) : N := match c with HDisc d => d | HLen n => n | HRaw b => fold_left (fun a x => (a * 31 + Byte.to_N x) mod 2 ^ 32)%N b 7%N end.
Definition ex_H (f : list hcall) : N := (fold_left (fun a c => a * 131 + ex_call c) f 5 mod 2 ^ 64)%N.
Definition ex_hash (v : pkey) : N := ex_H (feed_of v).
Example C89_hashed : hashed ex_H ex_hash.
Proof. split; [intros v; apply N.mod_lt; discriminate|]. intros m k v f I F. rewrite (key_feed_ok m k v I) in F. injection F as <-. reflexivity. Qed.
Definition ex_strs : list (op pkey nat) := map (fun p => OInsert pkey nat p) [(PkStr (bstr "sayan"), 1); (PkStr (bstr "root"), 2); (PkBin (bstr "root"), 3); (PkStr (bstr ""), 4)].
Definition ex_ints : list (op pkey nat) := map (fun p => OInsert pkey nat p) [(PkUInt 10, 1); (PkUInt 20, 2); (PkUInt 30, 3); (PkUInt 40, 4); (PkUInt 50, 5)].
Definition after (os : list (op pkey nat)) : idx pkey nat := match exec_all pkey nat pkey_eqb ex_hash (idx_new pkey nat) os with Some (s, _) => s | None => idx_new pkey nat end.
Example C89_case_strings : map (fun k => lookup_work pkey nat pkey_eqb ex_hash (after ex_strs) k) [PkStr (bstr "sayan"); PkStr (bstr "root"); PkBin (bstr "root"); PkStr (bstr "")] = [Some 1; Some 1; Some 1; Some 1].
Proof. vm_compute. reflexivity. Qed.
Example C89_case_integers : map (fun k => lookup_work pkey nat pkey_eqb ex_hash (after ex_ints) k) [PkUInt 10; PkUInt 50; PkUInt 60] = [Some 1; Some 5; Some 5] /\
  insert_work pkey nat pkey_eqb ex_hash (after ex_ints) (PkUInt 60, 6) = Some (6, 5) /\
  held pkey_eqb ex_ints [PkUInt 10; PkUInt 20; PkUInt 30; PkUInt 40; PkUInt 50].
Proof.
  do 2 (split; [vm_compute; reflexivity|]). split.
  - repeat (constructor; [cbn; intros I; repeat (destruct I as [I|I]; [discriminate I|]); destruct I|]). constructor.
  - intros k. unfold last_value, ex_ints. cbn [map fold_left eff fst snd]. split.
    + intros I. repeat (destruct I as [<-|I]; [vm_compute; discriminate|]). destruct I.
    + intros X. repeat match type of X with context [pkey_eqb k ?c] => let E := fresh in destruct (pkey_eqb k c) eqn:E; [apply pkey_eqb_eq in E; subst k; cbn; tauto|] end. contradiction X. reflexivity.
Qed.
Example C89_separates : separates ex_H [PkStr (bstr "sayan"); PkStr (bstr "root"); PkBin (bstr "root"); PkStr (bstr "")].
Proof.
  intros x y m m' a b f g IX IY A B F G E. rewrite (key_feed_ok _ _ _ A) in F. rewrite (key_feed_ok _ _ _ B) in G. injection F as <-. injection G as <-. clear A B.
  repeat (destruct IX as [<-|IX]; [repeat (destruct IY as [<-|IY]; [first [reflexivity|vm_compute in E; discriminate E]|]); destruct IY|]). destruct IX.
Qed.
Print Assumptions C89_counted.
Print Assumptions C89_lookup.
Print Assumptions C89_bytes_partial.
Print Assumptions C89_integers.
Print Assumptions C89_integer_insert.
Print Assumptions C89_refuted.
