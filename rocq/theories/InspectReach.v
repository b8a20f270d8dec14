(** Every name in the namespace is a word: through the lexer, the parsers and the executors. *)
From Coq Require Import Strings.String List NArith ZArith Bool Arith Lia Permutation.
From Verif Require Import Bytes DataModel CodecModel GnsCodecModel AMap DictModel TypeModel TypeProps GnsModel RowModel LexModel LexSpec LexProofs LexProps ParseModel ParseSpec
  DdlModel DdlSpec DdlProofs DdlAll ExecModel InspectModel JsonSpec.
Import ListNotations.

(** ** Tokens *)
Definition tok_ok (t : token) : Prop := match t with TId k => is_word k | _ => True end.
Lemma toks_ok q ts : toks q ts -> Forall tok_ok ts.
Proof.
  induction 1; auto; constructor; auto; try exact I. match goal with H : word_tok _ _ |- _ => destruct H end; try exact I. assumption.
Qed.
Lemma lex_ok u8 fl q p ts : lex u8 fl q p = LexOk ts -> Forall tok_ok ts.
Proof.
  intros H. apply C34_tokens in H. destruct H as (ts0 & H & F). apply C34_text in H. apply toks_ok in H. revert H.
  induction F as [|a b l l' R F IH]; intros H; constructor; inversion H; subst; auto.
  destruct R as [-> |(-> & [-> |(x & ->)])]; auto; exact I.
Qed.

(** what follows a value is a part of the tokens *)
Notation keeps t r := (forall P : token -> Prop, Forall P t -> Forall P r).
Lemma dict_keeps : (forall t x r, dent t x r -> keeps t r) /\ (forall t d r, dbody t d r -> keeps t r) /\ (forall t d r, dtail t d r -> keeps t r).
Proof.
  apply (dict_mut (fun t _ r => keeps t r) (fun t _ r => keeps t r) (fun t _ r => keeps t r)); intros;
    repeat match goal with H : Forall _ (_ :: _) |- _ => inversion H; clear H; subst end; eauto.
Qed.
Lemma pre_keeps t d r : dpre t d r -> keeps t r.
Proof.
  induction 1 as [|t x t1 d r D _ IH]; auto. intros P F. apply IH. apply (proj1 dict_keeps _ _ _ D) in F. inversion F; assumption.
Qed.
Lemma lyr_keeps t l r : lyr t l r -> keeps t r.
Proof.
  induction 1 as [ty r N|ty t d r B N|ty t d1 t1 ls t2 d2 r D L IH T N]; intros P F; inversion F as [|x y X F1]; subst; auto.
  - inversion F1; subst. eapply (proj1 (proj2 dict_keeps)); eassumption.
  - inversion F1; subst. eapply (proj2 (proj2 dict_keeps)); [eassumption|]. apply IH. apply (pre_keeps _ _ _ D) in H2. inversion H2 as [|x1 y1 X1 F3]; subst.
    inversion F3; assumption.
Qed.
Lemma fdecl_ok t f r : fdecl t f r -> Forall tok_ok t -> is_word (fs_name f) /\ Forall tok_ok r.
Proof.
  intros [null prim k t' ls r' _ L] F. apply Forall_app in F. destruct F as [_ F]. inversion F as [|x y X F1]; subst. inversion F1; subst. split; [exact X|].
  eapply lyr_keeps; eassumption.
Qed.
Lemma edecl_ok t f r : edecl t f r -> Forall tok_ok t -> is_word (ef_name f) /\ Forall tok_ok r.
Proof.
  intros H F. destruct H as [k t d r B N L|k t d1 t1 ls t2 d2 r D L T N LL]; inversion F as [|x y X F1]; subst; inversion F1; subst; (split; [exact X|]).
  - eapply (proj1 (proj2 dict_keeps)); eassumption.
  - eapply (proj2 (proj2 dict_keeps)); [eassumption|]. eapply lyr_keeps; [eassumption|]. apply (pre_keeps _ _ _ D) in H2. inversion H2 as [|x1 y1 X1 F3]; subst.
    inversion F3; assumption.
Qed.
Lemma items_ok {A} (p : list token -> A -> list token -> Prop) (Q : A -> Prop) :
  (forall t x r, p t x r -> Forall tok_ok t -> Q x /\ Forall tok_ok r) ->
  forall t l r, items p t l r -> Forall tok_ok t -> Forall Q l.
Proof.
  intros H t l r I. induction I as [t x r X|t x t1 l r X I IH]; intros F.
  - constructor; [|constructor]. eapply H; eassumption.
  - destruct (H _ _ _ X F) as [QX F1]. inversion F1; subst. constructor; auto.
Qed.

(** ** Statements *)
Definition stmt_ok (s : stmt) : Prop :=
  match s with
  | SCreateSpace k _ _ => is_word k
  | SCreateModel e fs _ _ => is_word (snd e) /\ Forall (fun f => is_word (fs_name f)) fs
  | SAlterModel _ (AkAdd l) | SAlterModel _ (AkUpdate l) => Forall (fun f => is_word (ef_name f)) l
  | SCreateUser k _ => is_word k
  | _ => True
  end.
Lemma exp_cols_ok t l : exp_cols t l -> Forall tok_ok t -> Forall (fun f => is_word (ef_name f)) l.
Proof.
  intros [t' f E|t' l' E] F.
  - constructor; [|constructor]. eapply edecl_ok; eassumption.
  - inversion F; subst. eapply (items_ok edecl); [|eassumption|assumption]. intros; eapply edecl_ok; eassumption.
Qed.
Lemma dispatch_ok ut ub ns root cs ts s : Forall tok_ok ts -> dispatch ut ub ns root cs ts = DReq (RqDdl s) -> stmt_ok s.
Proof.
  intros F D. destruct ts as [|[|[k|]| |] r]; try discriminate D. cbn [dispatch] in D. inversion F as [|x y _ FR]; subst. clear F.
  destruct (is_blocking k) eqn:B.
  - unfold blocking in D. destruct (negb _); [discriminate D|]. destruct r as [|a [|b r]]; try discriminate D.
    inversion FR as [|x y _ FB]; subst.
    destruct k; try discriminate B.
    + destruct (sysctl_of _) eqn:P; try discriminate D. injection D as <-. apply sysctl_iff in P. destruct P as [W _].
      inversion W; subst; try exact I. cbn. inversion FB as [|x y X FC]; subst. inversion FC; subst. assumption.
    + destruct (_ && _).
      { destruct (create_space_of _) eqn:P; try discriminate D. injection D as <-. apply create_space_iff in P. inversion P as [nx k t d W E1]; subst. rewrite <- E1 in FB.
        apply Forall_app in FB. destruct FB as [_ FB]. inversion FB; subst. assumption. }
      destruct (_ && _); [|discriminate D].
      destruct (create_model_of _) eqn:P; try discriminate D. injection D as <-. apply create_model_iff in P. destruct P as [_ P]. inversion P as [nx e t fs t1 d IT W E1]; subst. rewrite <- E1 in FB.
      apply Forall_app in FB. destruct FB as [_ FB]. unfold full in FB. cbn [app] in FB.
      inversion FB as [|x1 y1 X1 F1]; subst. inversion F1 as [|x2 y2 X2 F2]; subst. inversion F2 as [|x3 y3 X3 F3]; subst. inversion F3 as [|x4 y4 X4 F4]; subst.
      split; [exact X3|]. eapply (items_ok fdecl); [|eassumption|assumption]. intros; eapply fdecl_ok; eassumption.
    + destruct (_ && _).
      { destruct (alter_space_of _) eqn:P; try discriminate D. injection D as <-. apply alter_space_iff in P. inversion P; subst. exact I. }
      destruct (_ && _); [|discriminate D].
      destruct (alter_model_of _) eqn:P; try discriminate D. injection D as <-. apply alter_model_iff in P.
      assert (G : forall e x t l, exp_cols t l -> Forall tok_ok (full e ++ x :: t) -> Forall (fun f => is_word (ef_name f)) l).
      { intros e x t l E FF. apply Forall_app in FF. destruct FF as [_ FF]. inversion FF; subst. eapply exp_cols_ok; eassumption. }
      inversion P as [e t l E E1|e t l E E1|e t l E E1]; subst; cbn [stmt_ok]; try exact I; (eapply G; [exact E | exact FB]).
    + destruct (_ && _).
      { destruct (drop_space_of _) eqn:P; try discriminate D. injection D as <-. apply drop_space_iff in P. inversion P; subst. exact I. }
      destruct (_ && _); [|discriminate D].
      destruct (drop_model_of _) eqn:P; try discriminate D. injection D as <-. apply drop_model_iff in P. inversion P; subst. exact I.
  - destruct k; try discriminate B; cbn [nonblocking] in D; try discriminate D;
      try (match type of D with of_pres _ ?p = _ => destruct p; discriminate D end).
    destruct r as [|[|[|[]]| |] r]; match type of D with of_pres _ ?p = _ => destruct p; discriminate D end.
Qed.

(** ** The namespace *)
(** the type of a column: lists around one scalar type *)
Definition shape (ls : list tsel) : Prop := exists n t, t <> TsList /\ ls = repeat TsList n ++ [t].
Definition col_ok (c : bytes * field) : Prop := is_word (fst c) /\ shape (f_layers (snd c)).
Definition model_ok (m : mmodel) : Prop := Forall col_ok (lo_fields (md_lay m)).
Definition ns_ok (n : ns) : Prop :=
  Forall (fun s => is_word (fst s) /\ Forall is_word (sp_models (snd s))) (n_spaces n) /\
  Forall (fun m => model_ok (snd m)) (n_models n) /\ Forall (fun u => is_word (fst u)) (n_users n).

Section Map.
Context {K V : Type} (eqb : K -> K -> bool) (P : K * V -> Prop).
Lemma put_ok k v m : P (k, v) -> Forall P m -> Forall P (aput eqb k v m).
Proof. intros H. induction 1 as [|[k' v'] m X F IH]; cbn; [auto|]. destruct (eqb k k'); auto. Qed.
Lemma del_ok k m : Forall P m -> Forall P (adel eqb k m).
Proof. induction 1 as [|[k' v'] m X F IH]; cbn; [auto|]. destruct (eqb k k'); cbn; auto. Qed.
End Map.
Lemma get_ok {V} (P : bytes * V -> Prop) k v m : aget bseq k m = Some v -> Forall P m -> P (k, v).
Proof. intros G F. apply (aget_in _ bseq_eq) in G. rewrite Forall_forall in F. auto. Qed.
Lemma get_ok_e {V} (P : ent * V -> Prop) k v m : aget ent_eqb k m = Some v -> Forall P m -> exists k', P (k', v).
Proof.
  induction m as [|[k' v'] m IH]; [discriminate|]. cbn. intros G F. inversion F; subst. destruct (ent_eqb k k'); [|auto]. injection G as <-. eauto.
Qed.

Lemma insert_ok k v m m' b : f_insert k v m = (m', b) -> col_ok (k, v) -> Forall col_ok m -> Forall col_ok m'.
Proof. unfold f_insert. destruct (f_has k m); intros E H F; injection E as <- <-; auto. apply Forall_app; auto. Qed.
Lemma delete_ok k m : Forall col_ok m -> Forall col_ok (fst (f_delete k m)).
Proof. unfold f_delete. destruct (f_has k m); intros F; cbn; auto. apply del_ok. exact F. Qed.
Lemma update_ok k v m : col_ok (k, v) -> Forall col_ok m -> Forall col_ok (fst (f_update k v m)).
Proof. unfold f_update. destruct (f_has k m); intros H F; cbn; auto. apply Forall_app. split; [apply del_ok; exact F|auto]. Qed.
Lemma live_add_ok fs : forall m, Forall col_ok fs -> model_ok m -> model_ok (live_add fs m).
Proof.
  induction fs as [|[k v] fs IH]; intros m F M; [exact M|]. inversion F; subst. unfold live_add. cbn [fold_left fst snd]. apply IH; [assumption|].
  unfold mut_add. destruct (f_insert k v _) as [f r] eqn:E. unfold model_ok, bump, set_fields. cbn. eapply insert_ok; eassumption.
Qed.
Lemma live_rem_ok ks : forall m, model_ok m -> model_ok (live_rem ks m).
Proof.
  induction ks as [|k ks IH]; intros m M; [exact M|]. unfold live_rem. cbn [fold_left]. apply IH. unfold mut_rem.
  pose proof (delete_ok k (lo_fields (md_lay m)) M) as H. destruct (f_delete k _) as [f r]. exact H.
Qed.
Lemma live_upd_ok fs : forall m, Forall col_ok fs -> model_ok m -> model_ok (live_upd fs m).
Proof.
  induction fs as [|[k v] fs IH]; intros m F M; [exact M|]. inversion F; subst. unfold live_upd. cbn [fold_left fst snd]. apply IH; [assumption|].
  unfold mut_upd. pose proof (update_ok k v (lo_fields (md_lay m)) H1 M) as H. destruct (f_update k v _) as [f r]. exact H.
Qed.

Lemma parse_shape spec nl f : parse_layers spec nl = Some f -> shape (f_layers f).
Proof. intros H. apply C45_field_type_exact in H. destruct H as (n & t & N & -> & _). exists n, t. auto. Qed.
Lemma create_fields_ok l : forall fs pk cnt fs' pk' cnt', Forall (fun f => is_word (fs_name f)) l -> Forall col_ok fs ->
  create_fields l fs pk cnt = inr (fs', pk', cnt') -> Forall col_ok fs'.
Proof.
  induction l as [|s l IH]; intros fs pk cnt fs' pk' cnt' W F H; [injection H as <- _ _; exact F|]. inversion W; subst. cbn [create_fields] in H.
  destruct (if fs_primary s then _ else _) as [[pk1 cnt1] ok1]. destruct (parse_layers _ _) as [f|] eqn:P; [|discriminate H].
  destruct (f_insert _ _ _) as [fs1 ok2] eqn:E. destruct (ok1 && ok2); [|discriminate H]. eapply IH; [assumption| |eassumption].
  eapply insert_ok; [eassumption| |assumption]. split; [assumption|]. eapply parse_shape. eassumption.
Qed.
Lemma process_create_ok u l p lay : Forall (fun f => is_word (fs_name f)) l -> process_create_model u l p = inr lay -> Forall col_ok (lo_fields lay).
Proof.
  unfold process_create_model. intros W H. destruct p; [|discriminate H]. destruct l as [|x l]; [discriminate H|].
  destruct (create_fields _ _ _ _) as [[]|[[fs pk] cnt]] eqn:C; try discriminate H. destruct (N.leb cnt 1); [|discriminate H].
  destruct (match pk with Some k => Some k | None => _ end) as [k|]; [|discriminate H].
  destruct (f_get k fs) as [[nl [|t ts]]|]; try discriminate H. destruct (tuniq_is_unique _); [|discriminate H]. injection H as <-. cbn.
  eapply create_fields_ok; [exact W| |exact C]. constructor.
Qed.

(** the layers of an altered column *)
Lemma ldeltas_go_shape ls : forall cur nl d nl' d' ok ts, shape cur -> ldeltas_go ls cur nl d = inr (nl', d', ok, ts) -> ok = true -> shape ts.
Proof.
  induction ls as [|l ls IH]; intros cur nl d nl' d' ok ts S H OK; [injection H as _ _ _ <-; exact S|].
  destruct cur as [|c cur]; [destruct S as (n & t & _ & E); destruct n; discriminate E|]. cbn [ldeltas_go] in H.
  destruct (get_layer (ls_ty l)) as [t|]; [|discriminate H]. destruct (tsel_eqb c t || interop c t) eqn:C; [|discriminate H].
  destruct (ls_props l); [|injection H as _ _ <- _; discriminate OK].
  destruct (ldeltas_go ls cur _ _) as [e|[[[nl2 d2] ok2] ts2]] eqn:R; [discriminate H|]. injection H as -> -> -> <-.
  assert (EQ : c = TsList -> t = TsList).
  { intros ->. destruct t; try discriminate C. reflexivity. }
  assert (EQ2 : t = TsList -> c = TsList).
  { intros ->. destruct c; try discriminate C. reflexivity. }
  destruct S as (n & s & N & E). destruct n as [|n].
  - injection E as -> ->. cbn in R. destruct ls; injection R as _ _ _ <-; exists O, t; (split; [|reflexivity]); intros X; apply N; auto.
  - injection E as -> E. rewrite (EQ eq_refl). destruct (IH cur _ _ _ _ _ _ (ex_intro _ n (ex_intro _ s (conj N E))) R OK) as (m & u & M & ->).
    exists (S m), u. split; [exact M | reflexivity].
Qed.
Lemma ldeltas_shape cur ls nl a b f : shape (f_layers cur) -> ldeltas cur ls nl = inr (a, b, f) -> shape (f_layers f).
Proof.
  unfold ldeltas. destruct (Nat.ltb _ _); [discriminate|]. intros S H. destruct (ldeltas_go _ _ _ _) as [e|[[[x y] ok] ts]] eqn:G; [discriminate H|].
  destruct ok; [|discriminate H]. injection H as _ _ <-. cbn. eapply ldeltas_go_shape; [exact S | exact G | reflexivity].
Qed.
Lemma add_plan_ok pk fs l : forall add r, Forall (fun f => is_word (ef_name f)) l -> Forall col_ok add ->
  add_plan pk fs l add = Some (inr r) -> Forall col_ok r.
Proof.
  induction l as [|x l IH]; intros add r W A H; [injection H as <-; exact A|]. inversion W; subst. cbn [add_plan] in H.
  destruct (check_nullable _) as [[e|[nl rest]]|]; try discriminate H. destruct (parse_layers _ _) as [f|] eqn:P; [|discriminate H].
  destruct (f_insert _ _ _) as [add' fr] eqn:E. destruct (_ && fr); [|discriminate H]. eapply IH; [assumption| |exact H].
  eapply insert_ok; [exact E| |exact A]. split; [assumption|]. eapply parse_shape. exact P.
Qed.
Lemma upd_plan_ok pk fs l : forall nl d new a b r, Forall (fun f => is_word (ef_name f)) l -> Forall col_ok fs -> Forall col_ok new ->
  upd_plan pk fs l nl d new = Some (inr (a, b, r)) -> Forall col_ok r.
Proof.
  induction l as [|x l IH]; intros nl d new a b r W FS A H; [injection H as _ _ <-; exact A|]. inversion W; subst. cbn [upd_plan] in H.
  destruct (bseq _ pk); [discriminate H|]. destruct (f_get _ fs) as [cur|] eqn:G; [|discriminate H].
  destruct (check_nullable _) as [[e|[nn rest]]|]; try discriminate H. destruct (ldeltas _ _ _) as [e|[[nl1 d1] f]] eqn:L; [discriminate H|].
  destruct (f_insert _ _ _) as [new' fr] eqn:E. destruct (_ && fr); [|discriminate H]. eapply IH; [assumption|exact FS| |exact H].
  eapply insert_ok; [exact E| |exact A]. split; [assumption|]. eapply ldeltas_shape; [|exact L]. exact (proj2 (get_ok _ _ _ _ G FS)).
Qed.

Section Run.
Variable order : list (bytes * field) -> list (bytes * field).
Hypothesis order_perm : forall l, Permutation l (order l).
Variable hash : bytes -> N -> bytes.

Lemma commit_ns cok ev w w1 ok : driver_commit cok ev w = (w1, ok) -> w_ns w1 = w_ns w.
Proof. unfold driver_commit. destruct (w_iffy w); [|destruct cok]; intros H; injection H as <- _; reflexivity. Qed.
Lemma models_of_ok n k s : aget bseq k (n_spaces n) = Some s -> ns_ok n -> is_word k /\ Forall is_word (sp_models s).
Proof. intros G (A & _). exact (get_ok _ _ _ _ G A). Qed.
Lemma set_add_ok x l : is_word x -> Forall is_word l -> Forall is_word (set_add x l).
Proof. intros X L. unfold set_add. destruct (set_has x l); auto. apply Forall_app; auto. Qed.
Lemma set_del_ok x l : Forall is_word l -> Forall is_word (set_del x l).
Proof. unfold set_del. induction 1; cbn; auto. destruct (negb _); auto. Qed.
Lemma drop_models_ok sp l : forall ms ms', drop_models sp l ms = Some ms' -> Forall (fun m : ent * mmodel => model_ok (snd m)) ms ->
  Forall (fun m : ent * mmodel => model_ok (snd m)) ms'.
Proof.
  induction l as [|m l IH]; intros ms ms' H F; [injection H as <-; exact F|]. cbn in H. destruct (aget _ _ ms); [|discriminate H].
  eapply IH; [exact H|]. apply del_ok. exact F.
Qed.

Ltac com := match goal with |- context [driver_commit ?a ?b ?c] => destruct (driver_commit a b c) as [w1 ok] eqn:C; apply commit_ns in C; destruct ok end.
Lemma exec_ok se en w s : stmt_ok s -> ns_ok (w_ns w) -> ns_ok (w_ns (fst (exec_stmt order hash se en w s))).
Proof.
  intros S N. pose proof N as (A & B & U). unfold exec_stmt.
  destruct s as [k p nx|k p|k f ex|e fs p nx|e ak|e f ex|k o|k o|k|]; try (destruct (negb (se_root se)); [exact N|]); cbn [stmt_ok] in S; try exact N.
  - unfold exec_create_space. destruct (create_space_props p); [|exact N]. destruct (aget _ k _); [exact N|]. destruct (negb _); [exact N|].
    com; cbn [fst with_ns w_ns]; rewrite C; [|exact N]. split; [|split; assumption]. apply put_ok; [|exact A]. split; [exact S|constructor].
  - unfold exec_alter_space. destruct (aget _ k _) as [sp|] eqn:G; [|exact N].
    assert (GO : ns_ok (w_ns (fst (match prepare_patch (sp_props sp) p with
        | None => (w, OErr ErrProps)
        | Some patch =>
            let '(w1, ok) := driver_commit (e_commit en) (EvAlterSpace (mk_sid (sp_uuid sp) k) patch) w in
            if ok then
              match merge (sp_props sp) patch with
              | None => (w1, OPanic)
              | Some d =>
                  let d' := match dget KEY_ENV d with Some _ => d | None => aput bseq KEY_ENV (DMap []) d end in
                  (with_ns w1 (set_spaces (aput bseq k (mk_mspace (sp_uuid sp) (sp_models sp) d')
                                             (n_spaces (w_ns w1))) (w_ns w1)), OEmpty)
              end
            else (w1, OErr ErrServer)
        end)))).
    { destruct (prepare_patch _ _); [|exact N]. com; [destruct (merge _ _)|]; cbn [fst with_ns w_ns]; rewrite C; try exact N.
      split; [|split; assumption]. apply put_ok; [|exact A]. exact (models_of_ok _ _ _ G N). }
    destruct (dget KEY_ENV p) as [[c|m]|].
    + destruct (_ && _); [exact GO|exact N].
    + destruct (Nat.eqb _ _); [exact GO|exact N].
    + destruct p; exact N.
  - unfold exec_drop_space. destruct (aget _ k _) as [sp|] eqn:G; [|exact N]. destruct f.
    + com; cbn [w_ns with_ns] in C.
      * destruct (drop_models _ _ _) as [ms|] eqn:D; cbn [fst with_ns w_ns]; rewrite C in *; cbn [set_spaces set_models n_spaces n_models n_users] in *.
        -- split; [apply del_ok; exact A|]. split; [|exact U]. eapply drop_models_ok; eassumption.
        -- split; [apply del_ok; exact A|]. split; assumption.
      * cbn [fst]. rewrite C. split; [apply del_ok; exact A|]. split; assumption.
    + destruct (sp_models sp); [|exact N]. com; cbn [fst with_ns w_ns]; rewrite C; [|exact N]. split; [apply del_ok; exact A|]. split; assumption.
  - unfold exec_create_model. destruct (process_create_model _ _ _) as [x|lay] eqn:P; [exact N|]. destruct (aget _ (fst e) _) as [sp|] eqn:G; [|exact N].
    destruct (set_has _ _); [exact N|]. destruct (negb _); [exact N|]. com; cbn [fst with_ns w_ns]; rewrite C; [|exact N]. destruct S as [S1 S2].
    cbn [set_spaces set_models n_spaces n_models n_users]. destruct (models_of_ok _ _ _ G N) as [W1 W2].
    split; [|split; [|exact U]]; apply put_ok; auto.
    + split; [exact W1|]. apply set_add_ok; assumption.
    + unfold model_ok. cbn. eapply process_create_ok; eassumption.
  - unfold exec_alter_model. destruct (aget ent_eqb e _) as [m|] eqn:GM; [|exact N]. destruct (aget bseq (fst e) _) as [sp|] eqn:G; [|exact N].
    destruct (get_ok_e _ _ _ _ GM B) as (e' & M). cbn [snd] in M.
    destruct (fdeltas order m ak) as [[x|[nl a]]|] eqn:FD; try exact N. destruct (negb nl); [exact N|].
    assert (FIN : forall ev m', model_ok m' -> ns_ok (w_ns (fst (let '(w1, ok) := driver_commit (e_commit en) ev w in
                if ok then (with_ns w1 (set_models (aput ent_eqb e m' (n_models (w_ns w1))) (w_ns w1)), OEmpty)
                else (w1, OErr ErrServer))))).
    { intros ev m' M'. com; cbn [fst with_ns w_ns]; rewrite C; [|exact N]. split; [exact A|]. split; [|exact U]. apply put_ok; assumption. }
    assert (AOK : match a with AaAdd fs | AaUpdate fs => Forall col_ok fs | _ => True end).
    { unfold fdeltas in FD. destruct ak as [l|ks|l].
      - destruct (add_plan _ _ l []) as [[x|add]|] eqn:P; try discriminate FD. apply add_plan_ok in P; [|exact S|constructor].
        injection FD as _ <-. destruct add; [exact I|exact P].
      - destruct (negb _); [discriminate FD|]. destruct (rem_check _ _ _); [discriminate FD|]. injection FD as _ <-. destruct ks; exact I.
      - destruct (upd_plan _ _ l true false []) as [[x|[[nl' d] new]]|] eqn:P; try discriminate FD. apply upd_plan_ok in P; [|exact S|exact M|constructor].
        injection FD as _ <-. destruct d; [|exact I]. eapply Permutation_Forall; [apply order_perm|exact P]. }
    destruct a as [|fs|fs|ks]; [exact N|..]; apply FIN.
    + apply live_add_ok; assumption.
    + apply live_upd_ok; assumption.
    + apply live_rem_ok; assumption.
  - unfold exec_drop_model. destruct (aget bseq (fst e) _) as [sp|] eqn:G; [|exact N]. destruct (negb _); [exact N|].
    destruct (aget ent_eqb e _); [|exact N]. destruct (_ && _); [exact N|]. com; cbn [fst with_ns w_ns]; rewrite C; [|exact N].
    cbn [set_spaces set_models n_spaces n_models n_users]. destruct (models_of_ok _ _ _ G N) as [W1 W2].
    split; [|split; [apply del_ok; exact B|exact U]]. apply put_ok; [|exact A]. split; [exact W1|]. apply set_del_ok. exact W2.
  - unfold exec_create_user. destruct (user_password o); [|exact N]. destruct (aget _ k _); [exact N|]. com; cbn [fst with_ns w_ns]; rewrite C; [|exact N].
    split; [exact A|]. split; [exact B|]. apply put_ok; assumption.
  - destruct (se_root se); [exact N|]. destruct (user_password o); [|exact N]. unfold exec_alter_user. destruct (aget _ k _) eqn:G; [|exact N].
    com; cbn [fst with_ns w_ns]; rewrite C; [|exact N]. split; [exact A|]. split; [exact B|]. apply put_ok; [|exact U]. exact (get_ok _ _ _ _ G U).
  - destruct (bseq _ k); [exact N|]. unfold exec_drop_user. destruct (aget _ k _); [|exact N]. com; cbn [fst with_ns w_ns]; rewrite C; [|exact N].
    split; [exact A|]. split; [exact B|]. apply del_ok. exact U.
Qed.

(** ** Servers *)
Variable uuid_text : nat -> bytes.
Variable uuid_bin : nat -> bytes.
Variable now_secs : nat -> N.
Variable data : Type.
Variable dans : Type.
Variable dml : request -> ns -> data -> data * dans.
Variable inspect : session -> ns -> data -> inspect_stmt -> dans.

(** UTF-8 validation and the float parser, as in LexModel.v *)
Variable u8 : bytes -> bool.
Variable fl : bytes -> option N.

(** the states a server gets to from a new one by queries of any connections, given as texts with
    parameters *)
Inductive served : world -> data -> Prop :=
| sv_new h d : served (mk_world (mk_ns [] [] [(ROOT, h)]) [] false) d
| sv_query w d c en q p ts c' w' d' a : served w d -> lex u8 fl q p = LexOk ts ->
    query uuid_text uuid_bin now_secs order hash data dans dml inspect c en w d ts = (c', w', d', a) -> served w' d'.
Lemma root_word : is_word ROOT.
Proof.
  assert (L : forall b, In b ROOT -> letter b) by (intros b H; repeat (destruct H as [<-|H]; [unfold letter; vm_compute; split; discriminate|]); destruct H).
  split; [left; apply L; left; reflexivity|]. apply Forall_forall. intros b H. left. apply L. right. exact H.
Qed.
Lemma served_ok w d : served w d -> ns_ok (w_ns w).
Proof.
  induction 1 as [h d|w d c en q p ts c' w' d' a S IH L Q].
  - split; [constructor|]. split; [constructor|]. constructor; [exact root_word|constructor].
  - apply lex_ok in L. unfold query in Q. destruct (dispatch _ _ _ _ _ ts) as [r|e| | |] eqn:D; try (injection Q as _ <- _ _; exact IH).
    destruct r; try (destruct (dml _ _ _); injection Q as _ <- _ _; exact IH).
    + pose proof (exec_ok (c_se c) en w s (dispatch_ok _ _ _ _ _ _ _ L D) IH) as H.
      destruct (exec_stmt _ _ _ _ _ _) as [w2 o]. injection Q as _ <- _ _. exact H.
    + destruct (do_use _ _ _ _). injection Q as _ <- _ _. exact IH.
    + injection Q as _ <- _ _. exact IH.
Qed.
End Run.
