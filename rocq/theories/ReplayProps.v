(** Two exact statements about single functions: what a batch does to the table at start-up, for every batch, also one whose changes are out of
    order (C24); and that looking at a row between two schema changes makes no difference (C22). *)
From Coq Require Import List Arith NArith Bool Lia.
From Verif Require Import Bytes AMap DataModel CodecModel DictModel TypeModel GnsModel RowModel RowSpec RowTable BatchModel.
Import ListNotations.
Local Open Scope N_scope.

(** ** A batch, in any order *)

(** the revision of the row of key [k], if there is one *)
Definition rev_of (s : mst) (k : pkey) : option N :=
  match aget pkey_eqb k (m_idx s) with Some i => option_map ro_rev (nth_error (m_objs s) i) | None => None end.
Definition key_is (k : pkey) (e : bev) : bool := pkey_eqb k (be_key e).
Definition is_del (e : bev) : bool := match be_kind e with DkDelete => true | _ => false end.
(** the revision that the inserts and updates of [k] leave: that of the last one in the file *)
Definition last_put (k : pkey) (es : list bev) (v : option N) : option N :=
  fold_left (fun v e => if key_is k e && negb (is_del e) then Some (be_txn e) else v) es v.
(** the numbers of the deletions of [k] *)
Definition dels (k : pkey) (es : list bev) : list N := map be_txn (filter (fun e => key_is k e && is_del e) es).

Lemma resolve_rev sd o : ro_rev (resolve sd o) = ro_rev o.
Proof. unfold resolve. destruct (Nat.leb _ _); reflexivity. Qed.
Lemma aput_entry k v p : aget pkey_eqb k p = None \/ True -> forall k' (t : N), In (k', t) (aput pkey_eqb k v p) -> (k' = k /\ t = v) \/ In (k', t) p.
Proof.
  intros _. induction p as [|[x y] p IH]; intros k' t I; cbn [aput] in I.
  - destruct I as [I|[]]. injection I as <- <-. now left.
  - destruct (pkey_eqb k x) eqn:E.
    + destruct I as [I|I]; [injection I as <- <-; now left|right; now right].
    + destruct I as [I|I]; [right; now left|]. destruct (IH k' t I) as [X|X]; [now left|right; now right].
Qed.

(** the entries of [k] in the list of pending deletions bound what the deletions bound *)
Definition bounds (k : pkey) (p : list (pkey * N)) (ds : list N) : Prop :=
  NoDup (akeys p) /\ forall v, (forall t, In (k, t) p -> t < v) <-> (forall d, In d ds -> d < v).
Lemma akeys_put k v (p : list (pkey * N)) : NoDup (akeys p) -> NoDup (akeys (aput pkey_eqb k v p)).
Proof.
  induction p as [|[x y] p IH]; intros N; cbn [aput].
  - constructor; [intros []|constructor].
  - destruct (pkey_eqb k x) eqn:E.
    + apply pkey_eqb_eq in E. subst x. exact N.
    + cbn [akeys map fst] in *. inversion N as [|a b NI ND]; subst. constructor; [|exact (IH ND)].
      intros I. apply NI. unfold akeys in I. apply in_map_iff in I. destruct I as ([k' t] & Ek & I). cbn [fst] in Ek. subst k'.
      destruct (aput_entry k v p (or_intror Logic.I) x t I) as [[-> _]|X]; [rewrite (proj2 (pkey_eqb_eq k k) eq_refl) in E; discriminate E|].
      change x with (fst (x, t)). now apply in_map.
Qed.
Lemma in_unique k t u (p : list (pkey * N)) : NoDup (akeys p) -> In (k, t) p -> aget pkey_eqb k p = Some u -> t = u.
Proof. intros N I G. rewrite (in_aget _ pkey_eqb_eq k t p N I) in G. congruence. Qed.
Lemma bounds_del k p ds e : bounds k p ds -> bounds k (fin_del p e) (ds ++ if key_is k e then [be_txn e] else []).
Proof.
  intros [N B]. unfold fin_del.
  assert (PUT : bounds k p ds -> (forall u, aget pkey_eqb (be_key e) p = Some u -> u <= be_txn e) ->
    bounds k (aput pkey_eqb (be_key e) (be_txn e) p) (ds ++ if key_is k e then [be_txn e] else [])).
  { intros _ LE. split; [exact (akeys_put _ _ _ N)|]. intros v. unfold key_is. destruct (pkey_eqb k (be_key e)) eqn:E.
    - apply pkey_eqb_eq in E. subst k. split.
      + intros H d I. assert (T : be_txn e < v).
        { apply H. apply (aget_in _ pkey_eqb_eq). apply (aget_put_same _ pkey_eqb_eq). }
        apply in_app_iff in I. destruct I as [I|[<-|[]]]; [|exact T]. revert d I. apply B. intros t I.
        destruct (aget pkey_eqb (be_key e) p) as [u|] eqn:G.
        * rewrite (in_unique _ _ _ _ N I G). specialize (LE u eq_refl). lia.
        * apply (aget_none _ pkey_eqb_eq) in G. destruct G. change (be_key e) with (fst (be_key e, t)). now apply in_map.
      + intros H t I. destruct (aput_entry _ _ _ (or_intror Logic.I) _ _ I) as [[_ ->]|I'].
        * apply H. apply in_app_iff. right. now left.
        * revert t I I'. intros t _ I'. revert t I'. apply B. intros d D. apply H. apply in_app_iff. now left.
    - rewrite app_nil_r. rewrite <- (B v). split; intros H t I; apply H.
      + assert (G : aget pkey_eqb k p = Some t) by (apply (in_aget _ pkey_eqb_eq); assumption).
        apply (aget_in _ pkey_eqb_eq). rewrite (aget_put_other _ pkey_eqb_eq); [exact G|]. intros ->. rewrite (proj2 (pkey_eqb_eq _ _) eq_refl) in E. discriminate E.
      + destruct (aput_entry _ _ _ (or_intror Logic.I) _ _ I) as [[-> _]|I']; [rewrite (proj2 (pkey_eqb_eq _ _) eq_refl) in E; discriminate E|exact I']. }
  destruct (aget pkey_eqb (be_key e) p) as [u|] eqn:G.
  - destruct (N.ltb_spec (be_txn e) u) as [L|L].
    + split; [exact N|]. intros v. rewrite (B v). unfold key_is. destruct (pkey_eqb k (be_key e)) eqn:E; [|now rewrite app_nil_r].
      apply pkey_eqb_eq in E. subst k. split.
      * intros H d I. apply in_app_iff in I. destruct I as [I|[<-|[]]]; [exact (H d I)|].
        assert (u < v); [|lia]. apply (proj2 (B v) H). exact (aget_in _ pkey_eqb_eq _ _ _ G).
      * intros H d I. apply H. apply in_app_iff. now left.
    + apply PUT; [split; assumption|]. intros x X. injection X as <-. exact L.
  - apply PUT; [split; assumption|]. intros x X. discriminate X.
Qed.

Definition idx_ok (s : mst) : Prop := forall k i, aget pkey_eqb k (m_idx s) = Some i -> (i < length (m_objs s))%nat.

Lemma fin_put_rev sv s e s' : idx_ok s -> fin_put sv s e = Some s' ->
  idx_ok s' /\ forall k, rev_of s' k = if key_is k e then Some (be_txn e) else rev_of s k.
Proof.
  intros OK H. unfold fin_put in H. destruct (negb _); [discriminate H|]. injection H as <-. split.
  - intros k i. cbn [m_idx m_objs set_idx set_objs]. destruct (pkey_eqb k (be_key e)) eqn:E.
    + apply pkey_eqb_eq in E. subst k. rewrite (aget_put_same _ pkey_eqb_eq). intros X. injection X as <-. rewrite app_length. cbn [length]. lia.
    + assert (NE : k <> be_key e) by (intros X; apply pkey_eqb_eq in X; congruence).
      rewrite (aget_put_other _ pkey_eqb_eq), (aget_del_other _ pkey_eqb_eq) by exact NE. intros X. apply OK in X. rewrite app_length. lia.
  - intros k. unfold rev_of, key_is. cbn [m_idx m_objs set_idx set_objs]. destruct (pkey_eqb k (be_key e)) eqn:E.
    + apply pkey_eqb_eq in E. subst k. rewrite (aget_put_same _ pkey_eqb_eq). rewrite nth_error_app2 by lia. rewrite Nat.sub_diag. cbn [nth_error option_map].
      rewrite resolve_rev. reflexivity.
    + assert (NE : k <> be_key e) by (intros X; apply pkey_eqb_eq in X; congruence).
      rewrite (aget_put_other _ pkey_eqb_eq), (aget_del_other _ pkey_eqb_eq) by exact NE.
      destruct (aget pkey_eqb k (m_idx s)) as [i|] eqn:G; [|reflexivity]. rewrite nth_error_app1; [reflexivity|]. exact (OK _ _ G).
Qed.

Lemma fin_loop_exact sv k : forall es s p last s1 p1 last1 ds, idx_ok s -> bounds k p ds -> fin_loop sv s p last es = Some (s1, p1, last1) ->
  idx_ok s1 /\ bounds k p1 (ds ++ dels k es) /\ rev_of s1 k = last_put k es (rev_of s k).
Proof.
  induction es as [|e es IH]; intros s p last s1 p1 last1 ds OK B H; cbn [fin_loop] in H.
  - injection H as <- <- <-. split; [exact OK|]. split; [unfold dels; cbn; rewrite app_nil_r; exact B|reflexivity].
  - unfold last_put, dels. cbn [fold_left filter]. fold (last_put k es).
    destruct (be_kind e) eqn:KD.
    + destruct (IH _ _ _ _ _ _ (ds ++ if key_is k e then [be_txn e] else []) OK (bounds_del _ _ _ _ B) H) as (A1 & A2 & A3).
      unfold is_del. rewrite KD. rewrite andb_false_r, andb_true_r. split; [exact A1|]. split; [|exact A3].
      rewrite <- app_assoc in A2. destruct (key_is k e); exact A2.
    + destruct (fin_put sv s e) as [s'|] eqn:P; [|discriminate H]. destruct (fin_put_rev _ _ _ _ OK P) as [OK' R].
      destruct (IH _ _ _ _ _ _ ds OK' B H) as (A1 & A2 & A3). unfold is_del. rewrite KD. rewrite andb_false_r, andb_true_r.
      split; [exact A1|]. split; [exact A2|]. rewrite A3, R. reflexivity.
    + destruct (fin_put sv s e) as [s'|] eqn:P; [|discriminate H]. destruct (fin_put_rev _ _ _ _ OK P) as [OK' R].
      destruct (IH _ _ _ _ _ _ ds OK' B H) as (A1 & A2 & A3). unfold is_del. rewrite KD. rewrite andb_false_r, andb_true_r.
      split; [exact A1|]. split; [exact A2|]. rewrite A3, R. reflexivity.
Qed.

Lemma fin_drop_rev s kt : idx_ok s -> idx_ok (fin_drop s kt) /\
  forall k, rev_of (fin_drop s kt) k = match rev_of s k with Some v => if pkey_eqb k (fst kt) && negb (snd kt <? v) then None else Some v | None => None end.
Proof.
  intros OK. unfold fin_drop. destruct kt as [k0 t]. cbn [fst snd].
  destruct (aget pkey_eqb k0 (m_idx s)) as [i|] eqn:G.
  - destruct (nth_error (m_objs s) i) as [o|] eqn:N.
    + destruct (t <? ro_rev o) eqn:L.
      * split; [exact OK|]. intros k. destruct (rev_of s k) as [v|] eqn:R; [|reflexivity]. destruct (pkey_eqb k k0) eqn:E; [|reflexivity].
        apply pkey_eqb_eq in E. subst k. unfold rev_of in R. rewrite G, N in R. cbn in R. injection R as <-. rewrite L. reflexivity.
      * split.
        -- intros k j. cbn [m_idx m_objs set_idx]. destruct (pkey_eqb k k0) eqn:E.
           ++ apply pkey_eqb_eq in E. subst k. rewrite (aget_del_same pkey_eqb). discriminate.
           ++ assert (NE : k <> k0) by (intros X; apply pkey_eqb_eq in X; congruence). rewrite (aget_del_other _ pkey_eqb_eq) by exact NE. apply OK.
        -- intros k. unfold rev_of at 1. cbn [m_idx m_objs set_idx]. destruct (pkey_eqb k k0) eqn:E.
           ++ apply pkey_eqb_eq in E. subst k. rewrite (aget_del_same pkey_eqb). unfold rev_of. rewrite G, N. cbn. rewrite L. reflexivity.
           ++ assert (NE : k <> k0) by (intros X; apply pkey_eqb_eq in X; congruence). rewrite (aget_del_other _ pkey_eqb_eq) by exact NE. cbn [andb].
              unfold rev_of. destruct (aget pkey_eqb k (m_idx s)) as [j|]; [|reflexivity]. destruct (nth_error (m_objs s) j); reflexivity.
    + apply OK in G. apply nth_error_None in N. lia.
  - split; [exact OK|]. intros k. destruct (rev_of s k) as [v|] eqn:R; [|reflexivity]. destruct (pkey_eqb k k0) eqn:E; [|reflexivity].
    apply pkey_eqb_eq in E. subst k. unfold rev_of in R. rewrite G in R. discriminate R.
Qed.
Lemma fin_drops_rev k : forall p s, idx_ok s -> rev_of (fold_left fin_drop p s) k =
  match rev_of s k with Some v => if forallb (fun kt => negb (pkey_eqb k (fst kt)) || (snd kt <? v)) p then Some v else None | None => None end.
Proof.
  induction p as [|kt p IH]; intros s OK; cbn [fold_left forallb].
  - destruct (rev_of s k); reflexivity.
  - destruct (fin_drop_rev s kt OK) as [OK' R]. rewrite IH by exact OK'. rewrite R. destruct (rev_of s k) as [v|]; [|reflexivity].
    destruct (pkey_eqb k (fst kt)), (snd kt <? v); cbn [andb negb orb]; reflexivity.
Qed.

(** For every table and every batch that start-up does not refuse, in whatever order its changes are: the row of a key that is there afterwards is
    the one of the last insert or update of the key in the file (or the one that was there), and it is there exactly if every deletion of the
    key in the batch has a smaller number. *)
Theorem C24_batch_exact : forall s b s' k, idx_ok s -> finish s b = Some s' ->
  forall v, rev_of s' k = Some v <-> (last_put k (ba_evs b) (rev_of s k) = Some v /\ forall d, In d (dels k (ba_evs b)) -> d < v).
Proof.
  intros s b s' k OK H v. unfold finish in H. destruct (fin_loop (ba_schema b) s [] 0 (ba_evs b)) as [[[s1 p] last]|] eqn:L; [|discriminate H].
  injection H as <-. assert (B0 : bounds k [] []) by (split; [constructor|intros u; split; intros _ x []]).
  destruct (fin_loop_exact _ k _ _ _ _ _ _ _ [] OK B0 L) as (OK1 & [_ B] & R1). cbn [app] in B.
  assert (RV : forall n z, rev_of (set_dver n z) k = rev_of z k) by reflexivity. rewrite RV, (fin_drops_rev k p s1 OK1), R1.
  assert (FB : forall u, forallb (fun kt => negb (pkey_eqb k (fst kt)) || (snd kt <? u)) p = true <-> (forall d, In d (dels k (ba_evs b)) -> d < u)).
  { intros u. rewrite <- (B u). rewrite forallb_forall. split.
    - intros F t I. specialize (F _ I). cbn [fst snd] in F. rewrite (proj2 (pkey_eqb_eq k k) eq_refl) in F. cbn [negb orb] in F. now apply N.ltb_lt.
    - intros F [k' t] I. cbn [fst snd]. destruct (pkey_eqb k k') eqn:E; [|reflexivity]. apply pkey_eqb_eq in E. subst k'. cbn [negb orb]. apply N.ltb_lt. exact (F t I). }
  destruct (last_put k (ba_evs b) (rev_of s k)) as [u|]; [|split; [intros X; discriminate X|intros [X _]; discriminate X]].
  destruct (forallb _ p) eqn:F.
  - pose proof (proj1 (FB _) F) as F0. split; [intros X; injection X as <-; auto|intros [X _]; exact X].
  - split; [intros X; discriminate X|]. intros [X Y]. injection X as <-. pose proof (proj2 (FB _) Y). congruence.
Qed.

(** key 7 is inserted as 3, deleted as 5 and then as 4, the file has them out of order; key 8 is deleted as 2 and inserted as 6 *)
Definition ex_k (n : N) : pkey := lit_key (LUInt n).
Definition ex_ev (n t : N) (d : dkind) : bev := mk_bev d t (ex_k n) [].
Definition ex_b : batch := mk_batch 5 TuUInt 0 0 [ex_ev 7 3 DkInsert; ex_ev 7 5 DkDelete; ex_ev 8 2 DkDelete; ex_ev 7 4 DkDelete; ex_ev 8 6 DkInsert].
Example C24_batch_example : forall lay, exists s', finish (mst_new lay) ex_b = Some s' /\ rev_of s' (ex_k 7) = None /\ rev_of s' (ex_k 8) = Some 6
  /\ idx_ok (mst_new lay) /\ dels (ex_k 7) (ba_evs ex_b) = [5; 4].
Proof. intros lay. eexists. split; [reflexivity|]. split; [reflexivity|]. split; [reflexivity|]. split; [intros k i X; discriminate X|reflexivity]. Qed.

(** ** Looking at a row between two schema changes *)

(** Bringing a row up to date now and once more after further schema changes gives the same row as doing it once at the end. *)
Theorem C22_read_in_between : forall sd more o, resolve (sd ++ more) (resolve sd o) = resolve (sd ++ more) o.
Proof.
  intros sd more o. unfold resolve at 2. destruct (Nat.leb_spec (length sd) (ro_sv o)) as [L|L]; [reflexivity|].
  destruct (skipn (S (ro_sv o)) sd) as [|d ds] eqn:DS.
  - cbn [fold_left]. destruct o; reflexivity.
  - assert (L2 : (S (ro_sv o) < length sd)%nat).
    { assert (X : length (skipn (S (ro_sv o)) sd) = S (length ds)) by (rewrite DS; reflexivity). rewrite skipn_length in X. lia. }
    unfold resolve. cbn [ro_sv ro_key ro_fields ro_rev].
    destruct (Nat.leb_spec (length (sd ++ more)) (pred (length sd))) as [X|_]; [rewrite app_length in X; lia|].
    destruct (Nat.leb_spec (length (sd ++ more)) (ro_sv o)) as [X|_]; [rewrite app_length in X; lia|].
    replace (S (pred (length sd))) with (length sd) by lia. rewrite !skipn_app, skipn_all, Nat.sub_diag, DS. cbn [skipn app].
    replace (S (ro_sv o) - length sd)%nat with 0%nat by lia. cbn [skipn]. rewrite <- fold_left_app.
    destruct more as [|m more]; [cbn [app]; rewrite !app_nil_r; reflexivity|]. reflexivity.
Qed.
Example C22_in_between_example : let o := mk_row (ex_k 1) [] 1 0 in let sd := [SdAdd [Byte.x61]; SdAdd [Byte.x62]] in
  ro_fields (resolve sd o) = [([Byte.x62], CNull)] /\ ro_fields (resolve (sd ++ [SdAdd [Byte.x63]]) (resolve sd o)) = [([Byte.x62], CNull); ([Byte.x63], CNull)].
Proof. split; reflexivity. Qed.

Print Assumptions C24_batch_exact.
Print Assumptions C22_read_in_between.
