(** The pieces of the whole server one by one: one model's machine inside it. *)
From Coq Require Import Strings.String List NArith Bool Arith Lia Permutation.
From Verif Require Import Bytes AMap DataModel CodecModel GnsCodecModel DictModel GnsModel GnsProofs GnsHist RowModel BatchModel UpgradeModel UpgradeSteps WholeModel WholeSpec WholeProofs.
Import ListNotations.
Local Open Scope N_scope.

(** ** Schema and statements *)
Definition schema (m : mst) : layout * list sdelta := (m_lay m, m_sd m).

Section Schema.
Variable farith : aop -> N -> N -> N.
Variable order : fieldmap -> fieldmap.

Lemma dml_schema m q : is_dml q = true -> schema (fst (rstep farith order m q)) = schema m.
Proof.
  unfold schema. destruct q as [d|w asg|w|w cols|cols lim|k ok]; intros E; [| | | | |discriminate E]; cbn [rstep].
  - unfold exec_insert. destruct (m_iffy m); [reflexivity|]. destruct (prepare_insert _ _) as [[pk r]| |]; [|reflexivity..].
    destruct (aget _ _ _); reflexivity.
  - unfold exec_update. destruct (m_iffy m); [reflexivity|]. destruct (resolve_where _ _); [|reflexivity].
    destruct (aget _ _ _) as [oid|]; [|reflexivity]. destruct (nth_error _ oid); [|reflexivity].
    destruct (update_row _ _ _ _) as [m' []]; reflexivity.
  - unfold exec_delete. destruct (m_iffy m); [reflexivity|]. destruct (resolve_where _ _); [|reflexivity]. destruct (aget _ _ _); reflexivity.
  - unfold exec_select. destruct (resolve_where _ _); [|reflexivity]. destruct (aget _ _ _) as [oid|]; [|reflexivity].
    destruct (nth_error _ oid); [|reflexivity]. destruct (read_cols _ _ _ _); reflexivity.
  - unfold exec_select_all. destruct (match cols with None => false | Some _ => _ end); [reflexivity|]. destruct (scan_rows _ _ _ _ _) as [objs []]; reflexivity.
Qed.

Lemma fin_put_schema sv s e s' : fin_put sv s e = Some s' -> schema s' = schema s.
Proof.
  unfold fin_put. destruct (negb _); intros H; [discriminate H|]. injection H as <-. reflexivity.
Qed.
Lemma fin_loop_schema sv es : forall s p last s' p' l', fin_loop sv s p last es = Some (s', p', l') -> schema s' = schema s.
Proof.
  induction es as [|e es IH]; intros s p last s' p' l' H; cbn [fin_loop] in H; [injection H as <- _ _; reflexivity|].
  destruct (be_kind e); try (eapply IH; exact H); (destruct (fin_put sv s e) eqn:F; [|discriminate H]);
    (rewrite (IH _ _ _ _ _ _ H); eapply fin_put_schema; exact F).
Qed.
Lemma fin_drops_schema p : forall s, schema (fold_left fin_drop p s) = schema s.
Proof.
  induction p as [|x p IH]; intros s; [reflexivity|]. cbn [fold_left]. rewrite IH. unfold fin_drop.
  destruct (aget _ _ _); [|reflexivity]. destruct (nth_error _ _); [|reflexivity]. destruct (_ <? _); reflexivity.
Qed.
Lemma batches_schema l : forall s s', apply_batches s l = Some s' -> schema s' = schema s.
Proof.
  induction l as [|b l IH]; intros s s' H; cbn [apply_batches] in H; [injection H as <-; reflexivity|].
  destruct (finish s b) as [s1|] eqn:F; [|discriminate H]. rewrite (IH _ _ H). unfold finish in F.
  destruct (fin_loop _ _ _ _ _) as [[[s2 p] last]|] eqn:L; [|discriminate F]. injection F as <-.
  change (schema (set_dver ?x ?y)) with (schema y). rewrite fin_drops_schema. eapply fin_loop_schema; exact L.
Qed.
Lemma flush_schema m d m2 r : flush_one m d = (m2, r) -> schema m2 = schema m.
Proof.
  unfold flush_one. intros H. destruct (nth_error _ _) as [o|]; [|injection H as <- _; reflexivity].
  destruct (dd_kind d); try (destruct (_ <? _); [injection H as <- _; reflexivity|]); destruct (ro_key o); injection H as <- _; reflexivity.
Qed.

(** everything but ALTER MODEL keeps the schema *)
Definition no_alter (o : bop) : Prop := match o with BStmt q => is_dml q = true | _ => True end.
Lemma bstep_schema s o s' r : no_alter o -> bstep farith order s o = (s', r) -> schema (b_m s') = schema (b_m s).
Proof.
  intros NA H. destruct o as [q| |i|w|w| |]; cbn [bstep] in H.
  - assert (E : bstep farith order s (BStmt q) = (mk_bst (fst (rstep farith order (b_m s) q)) (b_file s) (b_tasks s) (b_fl s) (b_torn s) (b_bad s), BoStmt (snd (rstep farith order (b_m s) q)))).
    { cbn [bstep]. destruct (rstep _ _ _ q); destruct q; try reflexivity. discriminate NA. }
    cbn [bstep] in E. rewrite E in H. injection H as <- _. cbn [b_m]. apply dml_schema. exact NA.
  - injection H as <- _. reflexivity.
  - destruct (b_fl s); [injection H as <- _; reflexivity|]. destruct (nth_error _ i); [|injection H as <- _; reflexivity].
    destruct (m_iffy _); [injection H as <- _; reflexivity|]. destruct (_ =? 0); injection H as <- _; reflexivity.
  - destruct (b_fl s) as [f|]; [|injection H as <- _; reflexivity]. destruct (_ <=? _); [injection H as <- _; reflexivity|].
    destruct (m_queue (b_m s)) as [|d q]; [injection H as <- _; reflexivity|].
    destruct (flush_one _ d) as [m2 [|e|]] eqn:F; [injection H as <- _; cbn [b_m]; rewrite (flush_schema _ _ _ _ F); reflexivity| |injection H as <- _; reflexivity].
    destruct w; injection H as <- _; cbn [b_m flush_failed]; [|change (schema (set_iffy true (enqueue d m2))) with (schema m2)]; rewrite (flush_schema _ _ _ _ F); reflexivity.
  - destruct (b_fl s) as [f|]; [|injection H as <- _; reflexivity]. destruct (_ <? _); [injection H as <- _; reflexivity|].
    destruct w; injection H as <- _; reflexivity.
  - destruct (b_fl s); [injection H as <- _; reflexivity|]. destruct (b_torn s); injection H as <- _; reflexivity.
  - destruct (b_fl s); [injection H as <- _; reflexivity|]. destruct (b_bad s); [injection H as <- _; reflexivity|].
    destruct (apply_batches _ _) eqn:A; injection H as <- _; [|reflexivity]. cbn [b_m]. rewrite (batches_schema _ _ _ A). reflexivity.
Qed.

(** ** Other tasks in the queue do not matter *)
Definition with_tasks (ts : list N) (s : bst) : bst := mk_bst (b_m s) (b_file s) ts (b_fl s) (b_torn s) (b_bad s).
Definition task_free (o : bop) : Prop := match o with BTake | BStep _ | BEnd _ | BRecover => True | _ => False end.

Lemma bstep_tasks s o ts s' r : task_free o -> b_tasks s = [] -> bstep farith order s o = (s', r) ->
  bstep farith order (with_tasks ts s) o = (with_tasks (ts ++ b_tasks s') s', r).
Proof.
  intros TF T0 H. destruct s as [m fi ts0 fl tn bd]. cbn [b_tasks] in T0. subst ts0.
  unfold with_tasks. cbn [b_m b_file b_fl b_torn b_bad].
  destruct o as [q| |i|w|w| |]; try destruct TF; cbn [bstep b_m b_file b_fl b_torn b_bad b_tasks] in H |- *.
  - injection H as <- <-. reflexivity.
  - destruct fl as [f|]; [|injection H as <- <-; cbn; rewrite app_nil_r; reflexivity].
    destruct (_ <=? _); [injection H as <- <-; cbn; rewrite app_nil_r; reflexivity|].
    destruct (m_queue m) as [|d q]; [injection H as <- <-; cbn; rewrite app_nil_r; reflexivity|].
    destruct (flush_one _ d) as [m2 [|e|]]; [injection H as <- <-; cbn; rewrite app_nil_r; reflexivity| |injection H as <- <-; cbn; rewrite app_nil_r; reflexivity].
    destruct w; injection H as <- <-; cbn; rewrite ?app_nil_r; reflexivity.
  - destruct fl as [f|]; [|injection H as <- <-; cbn; rewrite app_nil_r; reflexivity].
    destruct (_ <? _); [injection H as <- <-; cbn; rewrite app_nil_r; reflexivity|].
    destruct w; injection H as <- <-; cbn; rewrite ?app_nil_r; reflexivity.
  - destruct fl as [f|]; [injection H as <- <-; cbn; rewrite app_nil_r; reflexivity|].
    destruct tn; injection H as <- <-; cbn; rewrite app_nil_r; reflexivity.
Qed.
Lemma bstep_begin s j ts n s' r : b_tasks s = [n] -> b_fl s = None -> nth_error ts j = Some n -> bstep farith order s (BBegin 0) = (s', r) ->
  bstep farith order (with_tasks ts s) (BBegin j) = (with_tasks (del_nth j ts ++ b_tasks s') s', r).
Proof.
  intros T0 F0 NT H. destruct s as [m fi ts0 fl tn bd]. cbn [b_tasks b_fl] in *. subst ts0 fl.
  unfold with_tasks. cbn [bstep b_m b_file b_fl b_torn b_bad b_tasks nth_error] in H |- *. rewrite NT.
  destruct (m_iffy m); [injection H as <- <-; reflexivity|]. destruct (n =? 0); injection H as <- <-; cbn; rewrite app_nil_r; reflexivity.
Qed.
End Schema.

(** ** Lists *)
Lemma del_nth_0 {A} (x : A) l : del_nth 0 (x :: l) = l. Proof. reflexivity. Qed.
Lemma del_nth_S {A} (x : A) l i : del_nth (S i) (x :: l) = x :: del_nth i l. Proof. reflexivity. Qed.
Lemma del_nth_nil {A} i : del_nth i (@nil A) = []. Proof. destruct i; reflexivity. Qed.
Lemma del_nth_in {A} (i : nat) (l : list A) x : In x (del_nth i l) -> In x l.
Proof.
  revert i. induction l as [|y l IH]; intros [|i]; rewrite ?del_nth_nil; auto; [intros H; right; exact H|].
  rewrite del_nth_S. intros [->|H]; [left; reflexivity|right; eauto].
Qed.
Lemma filter_del_no {A} (p : A -> bool) l : forall i t, nth_error l i = Some t -> p t = false -> filter p (del_nth i l) = filter p l.
Proof.
  induction l as [|y l IH]; intros [|i] t N P; try discriminate N; cbn [nth_error] in N.
  - injection N as ->. rewrite del_nth_0. cbn [filter]. rewrite P. reflexivity.
  - rewrite del_nth_S. cbn [filter]. rewrite (IH _ _ N P). reflexivity.
Qed.
Lemma filter_del_yes {A} (p : A -> bool) l : forall i t, nth_error l i = Some t -> p t = true ->
  nth_error (filter p l) (length (filter p (firstn i l))) = Some t /\
  filter p (del_nth i l) = del_nth (length (filter p (firstn i l))) (filter p l).
Proof.
  induction l as [|y l IH]; intros [|i] t N P; try discriminate N; cbn [nth_error] in N.
  - injection N as ->. rewrite del_nth_0. cbn [filter firstn]. rewrite P. split; reflexivity.
  - destruct (IH _ _ N P) as [A1 A2]. rewrite del_nth_S. cbn [filter firstn]. destruct (p y); cbn [length]; [|auto].
    rewrite del_nth_S. cbn [nth_error]. split; [exact A1|]. rewrite A2. reflexivity.
Qed.
Lemma map_del_nth {A B} (f : A -> B) l : forall i, map f (del_nth i l) = del_nth i (map f l).
Proof. induction l as [|y l IH]; intros [|i]; try reflexivity. rewrite del_nth_S. cbn [map]. rewrite del_nth_S, IH. reflexivity. Qed.

Lemma aget_filter {K V} (eqb : K -> K -> bool) (eqb_ok : forall a b, eqb a b = true <-> a = b) (p : K -> bool) (l : list (K * V)) k :
  aget eqb k (filter (fun kv => p (fst kv)) l) = if p k then aget eqb k l else None.
Proof.
  induction l as [|[k' v] l IH]; cbn [filter aget fst]; [destruct (p k); reflexivity|].
  destruct (p k') eqn:P; cbn [aget]; destruct (eqb k k') eqn:E.
  - apply eqb_ok in E as ->. rewrite P. reflexivity.
  - exact IH.
  - apply eqb_ok in E as ->. rewrite P in IH |- *. exact IH.
  - exact IH.
Qed.
Lemma aget_map {K V W} (eqb : K -> K -> bool) (f : V -> W) (l : list (K * V)) k :
  aget eqb k (map (fun kv => (fst kv, f (snd kv))) l) = match aget eqb k l with Some v => Some (f v) | None => None end.
Proof. induction l as [|[k' v] l IH]; cbn; [reflexivity|]. destruct (eqb k k'); [reflexivity|exact IH]. Qed.

Lemma flushing_none g id nd : flushing g = false -> aget ent_eqb id (g_nodes g) = Some nd -> nd_fl nd = None.
Proof.
  unfold flushing. intros F G. apply (aget_in ent_eqb ent_eqb_eq) in G. destruct (nd_fl nd) eqn:E; [|reflexivity].
  enough (existsb (fun kn => match nd_fl (snd kn) with Some _ => true | None => false end) (g_nodes g) = true) by congruence.
  apply existsb_exists. exists (id, nd). cbn [snd]. rewrite E. auto.
Qed.

Lemma load_nodes_get n d files : forall l r, load_nodes n d files l = Some r -> forall id,
  match aget ent_eqb id l with
  | None => aget ent_eqb id r = None
  | Some _ => exists f lay df m, file_of n id = Some (f, lay) /\ aget fid_eqb f files = Some df /\ df_bad df = false /\
      apply_batches (base_of lay (sds_get d id)) (df_bs df) = Some m /\ aget ent_eqb id r = Some (mk_node m None f)
  end.
Proof.
  induction l as [|[i mm] l IH]; intros r H id; cbn [load_nodes] in H; [injection H as <-; reflexivity|].
  destruct (file_of n i) as [[f lay]|] eqn:E1; [|discriminate H]. destruct (aget fid_eqb f files) as [df|] eqn:E2; [|discriminate H].
  destruct (df_bad df) eqn:E3; [discriminate H|]. destruct (apply_batches _ _) as [m|] eqn:E4; [|discriminate H].
  destruct (load_nodes n d files l) as [r'|] eqn:E5; [|discriminate H]. injection H as <-. specialize (IH _ eq_refl id).
  cbn [aget]. destruct (ent_eqb id i) eqn:E; [|exact IH]. apply ent_eqb_eq in E as ->. exists f, lay, df, m. auto.
Qed.
Lemma load_nodes_ok n d files : forall l, (forall id mm, In (id, mm) l -> exists f lay df m, file_of n id = Some (f, lay) /\
    aget fid_eqb f files = Some df /\ df_bad df = false /\ apply_batches (base_of lay (sds_get d id)) (df_bs df) = Some m) ->
  load_nodes n d files l <> None.
Proof.
  induction l as [|[i mm] l IH]; intros H; [discriminate|]. cbn [load_nodes].
  destruct (H i mm) as (f & lay & df & m & -> & -> & -> & ->); [left; reflexivity|].
  specialize (IH (fun id mm0 I => H id mm0 (or_intror I))). destruct (load_nodes n d files l); [discriminate|contradiction].
Qed.
