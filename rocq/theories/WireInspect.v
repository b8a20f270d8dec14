(** The names of a server that is restarted and reached by bytes are words: proofs for C55 over the wire. *)
From Coq Require Import Strings.String List NArith ZArith Bool Arith Lia Permutation.
From Verif Require Import Bytes DataModel CodecModel GnsCodecModel AMap DictModel TypeModel GnsModel GnsProofs RowModel NetModel LexModel LexSpec ParseModel ParseSpec
  DdlModel ExecModel InspectModel JsonSpec InspectProofs InspectReach BatchModel UpgradeModel WholeModel WholeSpec WireModel WireSpec.
Import ListNotations.

(** what the log says is in words as well *)
Definition ev_ok (e : gns_event) : Prop :=
  match e with
  | EvCreateSpace k _ | EvCreateUser k _ => is_word k
  | EvCreateModel _ k lay => is_word k /\ Forall col_ok (lo_fields lay)
  | EvAlterModelAdd _ fs | EvAlterModelUpdate _ fs => Forall col_ok fs
  | _ => True
  end.
Definition world_ok (w : world) : Prop := ns_ok (w_ns w) /\ Forall ev_ok (w_log w).

Lemma commit_log cok ev w w1 ok : driver_commit cok ev w = (w1, ok) -> ev_ok ev -> Forall ev_ok (w_log w) -> Forall ev_ok (w_log w1).
Proof.
  unfold driver_commit. intros H E F. destruct (w_iffy w); [injection H as <- _; exact F|]. destruct cok; injection H as <- _; [|exact F].
  cbn [w_log]. apply Forall_app. auto.
Qed.

(** ** Replay *)
Lemma replay_add_ok fs : forall m m', Forall col_ok fs -> model_ok m -> replay_add fs m = Some m' -> model_ok m'.
Proof.
  induction fs as [|[k v] fs IH]; intros m m' F M R; [injection R as <-; exact M|]. inversion F; subst. cbn [replay_add] in R.
  unfold mut_add in R. destruct (f_insert k v _) as [f r] eqn:E. destruct r; [|discriminate R]. eapply IH; [assumption| |exact R].
  unfold model_ok, bump, set_fields. cbn. eapply insert_ok; eassumption.
Qed.
Lemma replay_rem_ok ks : forall m m', model_ok m -> replay_rem ks m = Some m' -> model_ok m'.
Proof.
  induction ks as [|k ks IH]; intros m m' M R; [injection R as <-; exact M|]. cbn [replay_rem] in R. unfold mut_rem in R.
  pose proof (delete_ok k (lo_fields (md_lay m)) M) as H. destruct (f_delete k _) as [f r]. destruct r; [|discriminate R]. eapply IH; [|exact R]. exact H.
Qed.
Lemma replay_upd_ok fs : forall m m', Forall col_ok fs -> model_ok m -> replay_upd fs m = Some m' -> model_ok m'.
Proof.
  induction fs as [|[k v] fs IH]; intros m m' F M R; [injection R as <-; exact M|]. inversion F; subst. cbn [replay_upd] in R. unfold mut_upd in R.
  pose proof (update_ok k v (lo_fields (md_lay m)) H1 M) as H. destruct (f_update k v _) as [f r]. destruct r; [|discriminate R]. eapply IH; [assumption| |exact R]. exact H.
Qed.
Lemma with_model_ok n mid f n' : ns_ok n -> (forall m m', model_ok m -> f m = Some m' -> model_ok m') -> with_model_mut n mid f = Some n' -> ns_ok n'.
Proof.
  intros N HF. unfold with_model_mut, with_space. destruct (aget bseq _ _); [|discriminate]. destruct (_ =? _)%N; [|discriminate].
  destruct (aget ent_eqb _ _) as [mm|] eqn:G; [|discriminate]. destruct (_ =? _)%N; [|discriminate]. destruct (f mm) as [mm1|] eqn:E; [|discriminate]. intros H. injection H as <-.
  destruct N as (A & B & U). split; [exact A|]. split; [|exact U]. cbn [set_models n_models]. destruct (get_ok_e _ _ _ _ G B) as (e' & M).
  apply put_ok; [|exact B]. eapply HF; [exact M|exact E].
Qed.
Lemma del_list_ok sp l : forall ms : list (ent * mmodel), Forall (fun m : ent * mmodel => model_ok (snd m)) ms ->
  Forall (fun m : ent * mmodel => model_ok (snd m)) (fold_left (fun ms m => adel ent_eqb (sp, m) ms) l ms).
Proof. induction l as [|m l IH]; intros ms F; [exact F|]. cbn [fold_left]. apply IH. apply del_ok. exact F. Qed.
Lemma apply_ok n e n' : ev_ok e -> ns_ok n -> apply_event n e = Some n' -> ns_ok n'.
Proof.
  intros EO N. pose proof N as (A & B & U). destruct e as [k sp|sid p|sid|sid k lay|mid fs|mid ks|mid fs|mid|k h|k h|k]; cbn [apply_event]; cbn [ev_ok] in EO.
  - destruct (aget bseq k _); [discriminate|]. intros H. injection H as <-. split; [|split; assumption]. apply put_ok; [|exact A]. split; [exact EO|constructor].
  - destruct (aget bseq _ _) as [s|] eqn:G; [|discriminate]. destruct (merge_metadata _ _) as [[d|]|]; try discriminate. intros H. injection H as <-.
    split; [|split; assumption]. apply put_ok; [|exact A]. exact (models_of_ok _ _ _ G N).
  - destruct (aget bseq _ _) as [s|] eqn:G; [|discriminate]. destruct (_ =? _)%N; [|discriminate]. intros H. injection H as <-.
    split; [apply del_ok; exact A|]. split; [|exact U]. apply del_list_ok. exact B.
  - destruct (aget bseq _ _) as [s|] eqn:G; [|discriminate]. destruct (set_has _ _); [discriminate|]. destruct (aget ent_eqb _ _); [discriminate|]. intros H. injection H as <-.
    destruct EO as [E1 E2]. destruct (models_of_ok _ _ _ G N) as [W1 W2]. split; [|split; [|exact U]]; apply put_ok; auto.
    split; [exact W1|]. apply set_add_ok; assumption.
  - apply with_model_ok; [exact N|]. intros m m'. apply replay_add_ok. exact EO.
  - apply with_model_ok; [exact N|]. intros m m'. apply replay_rem_ok.
  - apply with_model_ok; [exact N|]. intros m m'. apply replay_upd_ok. exact EO.
  - unfold with_space. destruct (aget bseq _ _) as [s|] eqn:G; [|discriminate]. destruct (_ =? _)%N; [|discriminate]. destruct (negb _); [discriminate|].
    destruct (aget ent_eqb _ _); [|discriminate]. destruct (_ =? _)%N; [|discriminate]. intros H. injection H as <-. destruct (models_of_ok _ _ _ G N) as [W1 W2].
    split; [|split; [apply del_ok; exact B|exact U]]. apply put_ok; [|exact A]. split; [exact W1|]. apply set_del_ok. exact W2.
  - destruct (aget bseq k _); [discriminate|]. intros H. injection H as <-. split; [exact A|]. split; [exact B|]. apply put_ok; assumption.
  - destruct (aget bseq k _) eqn:G; [|discriminate]. intros H. injection H as <-. split; [exact A|]. split; [exact B|]. apply put_ok; [|exact U]. exact (get_ok _ _ _ _ G U).
  - destruct (aget bseq k _); [|discriminate]. intros H. injection H as <-. split; [exact A|]. split; [exact B|]. apply del_ok. exact U.
Qed.
Lemma replay_ok l : forall n n', Forall ev_ok l -> ns_ok n -> replay n l = Some n' -> ns_ok n'.
Proof.
  induction l as [|e l IH]; intros n n' F N R; [injection R as <-; exact N|]. inversion F; subst. cbn [replay] in R.
  destruct (apply_event n e) as [n1|] eqn:E; [|discriminate R]. eapply IH; [assumption| |exact R]. eapply apply_ok; eassumption.
Qed.

Section Run.
Variable order : list (bytes * field) -> list (bytes * field).
Hypothesis order_perm : forall l, Permutation l (order l).
Variable hash : bytes -> N -> bytes.
Variable verify : bytes -> bytes -> bool.

Ltac com := match goal with |- context [driver_commit ?a ?b ?c] => let C := fresh "C" in let ok := fresh "ok" in
  destruct (driver_commit a b c) as [w1 ok] eqn:C; apply commit_log in C; [destruct ok|..] end.
Lemma exec_log se en w s : stmt_ok s -> world_ok w -> Forall ev_ok (w_log (fst (exec_stmt order hash se en w s))).
Proof using order_perm.
  intros S [N L]. pose proof N as (A & B & U). unfold exec_stmt.
  destruct s as [k p nx|k p|k f ex|e fs p nx|e ak|e f ex|k o|k o|k|]; try (destruct (negb (se_root se)); [exact L|]); cbn [stmt_ok] in S; try exact L.
  - unfold exec_create_space. destruct (create_space_props p); [|exact L]. destruct (aget _ k _); [exact L|]. destruct (negb _); [exact L|].
    com; [exact C|exact C|exact S|exact L].
  - unfold exec_alter_space. destruct (aget _ k _) as [sp|] eqn:G; [|exact L].
    assert (GO : Forall ev_ok (w_log (fst (match prepare_patch (sp_props sp) p with
        | None => (w, OErr ErrProps)
        | Some patch =>
            let '(w1, ok) := driver_commit (e_commit en) (EvAlterSpace (mk_sid (sp_uuid sp) k) patch) w in
            if ok then
              match merge (sp_props sp) patch with
              | None => (w1, OPanic)
              | Some d =>
                  let d' := match dget KEY_ENV d with Some _ => d | None => aput bseq KEY_ENV (DMap []) d end in
                  (with_ns w1 (set_spaces (aput bseq k (mk_mspace (sp_uuid sp) (sp_models sp) d')
                                             (n_spaces (w_ns w1))) (w_ns w1)), OEmpty)
              end
            else (w1, OErr ErrServer)
        end)))).
    { destruct (prepare_patch _ _); [|exact L]. com; [destruct (merge _ _); exact C|exact C|exact Logic.I|exact L]. }
    destruct (dget KEY_ENV p) as [[c|m]|].
    + destruct (_ && _); [exact GO|exact L].
    + destruct (Nat.eqb _ _); [exact GO|exact L].
    + destruct p; exact L.
  - unfold exec_drop_space. destruct (aget _ k _) as [sp|] eqn:G; [|exact L]. destruct f.
    + com; [destruct (drop_models _ _ _); exact C|exact C|exact Logic.I|exact L].
    + destruct (sp_models sp); [|exact L]. com; [exact C|exact C|exact Logic.I|exact L].
  - unfold exec_create_model. destruct (process_create_model _ _ _) as [x|lay] eqn:P; [exact L|]. destruct (aget _ (fst e) _) as [sp|] eqn:G; [|exact L].
    destruct (set_has _ _); [exact L|]. destruct (negb _); [exact L|]. com; [exact C|exact C| |exact L]. destruct S as [S1 S2]. split; [exact S1|]. eapply process_create_ok; eassumption.
  - unfold exec_alter_model. destruct (aget ent_eqb e _) as [m|] eqn:GM; [|exact L]. destruct (aget bseq (fst e) _) as [sp|] eqn:G; [|exact L].
    destruct (get_ok_e _ _ _ _ GM B) as (e' & M). cbn [snd] in M.
    destruct (fdeltas order m ak) as [[x|[nl a]]|] eqn:FD; try exact L. destruct (negb nl); [exact L|].
    assert (FIN : forall ev m', ev_ok ev -> Forall ev_ok (w_log (fst (let '(w1, ok) := driver_commit (e_commit en) ev w in
                if ok then (with_ns w1 (set_models (aput ent_eqb e m' (n_models (w_ns w1))) (w_ns w1)), OEmpty)
                else (w1, OErr ErrServer))))).
    { intros ev m' M'. com; [exact C|exact C|exact M'|exact L]. }
    assert (AOK : match a with AaAdd fs | AaUpdate fs => Forall col_ok fs | _ => True end).
    { unfold fdeltas in FD. destruct ak as [l|ks|l].
      - destruct (add_plan _ _ l []) as [[x|add]|] eqn:P; try discriminate FD. apply add_plan_ok in P; [|exact S|constructor].
        injection FD as _ <-. destruct add; [exact Logic.I|exact P].
      - destruct (negb _); [discriminate FD|]. destruct (rem_check _ _ _); [discriminate FD|]. injection FD as _ <-. destruct ks; exact Logic.I.
      - destruct (upd_plan _ _ l true false []) as [[x|[[nl' d] new]]|] eqn:P; try discriminate FD. apply upd_plan_ok in P; [|exact S|exact M|constructor].
        injection FD as _ <-. destruct d; [|exact Logic.I]. eapply Permutation_Forall; [apply order_perm|exact P]. }
    destruct a as [|fs|fs|ks]; [exact L|..]; apply FIN; exact AOK.
  - unfold exec_drop_model. destruct (aget bseq (fst e) _) as [sp|] eqn:G; [|exact L]. destruct (negb _); [exact L|].
    destruct (aget ent_eqb e _); [|exact L]. destruct (_ && _); [exact L|]. com; [exact C|exact C|exact Logic.I|exact L].
  - unfold exec_create_user. destruct (user_password o); [|exact L]. destruct (aget _ k _); [exact L|]. com; [exact C|exact C|exact S|exact L].
  - destruct (se_root se); [exact L|]. destruct (user_password o); [|exact L]. unfold exec_alter_user. destruct (aget _ k _) eqn:G; [|exact L].
    com; [exact C|exact C|exact Logic.I|exact L].
  - destruct (bseq _ k); [exact L|]. unfold exec_drop_user. destruct (aget _ k _); [|exact L]. com; [exact C|exact C|exact Logic.I|exact L].
Qed.

Lemma boot_ok key salt log w : Forall ev_ok log -> boot hash verify key salt log = Some w -> world_ok w.
Proof using.
  unfold boot. intros F H. destruct (replay ns_empty log) as [n|] eqn:R; [|discriminate H].
  assert (N : ns_ok n) by (eapply replay_ok; [exact F| |exact R]; repeat split; constructor). clear R.
  assert (S1 : world_ok (mk_world n log false)) by (split; assumption).
  assert (S2 : forall users, Forall (fun u : bytes * bytes => is_word (fst u)) users -> world_ok (mk_world (set_users users n) (log ++ [EvAlterUser ROOT (hash key salt)]) false)).
  { intros users W. destruct N as (A & B & _). split; [split; [exact A|split; [exact B|exact W]]|]. cbn [w_log]. apply Forall_app. split; [exact F|]. constructor; [exact Logic.I|constructor]. }
  destruct (verify_user verify n ROOT key); injection H as <-; try exact S1. apply S2. destruct N as (_ & _ & U). destruct (aget bseq ROOT (n_users n)); [|exact U].
  apply put_ok; [exact root_word|exact U].
Qed.
Lemma start_ok key salt : world_ok (sv_w (GnsModel.start hash key salt)).
Proof using.
  split; [split; [constructor|split; [constructor|]]|]; (constructor; [exact root_word|constructor]).
Qed.

(** the statements that come over the wire are in words *)
Variable farith : aop -> N -> N -> N.
Variable u8 : bytes -> bool.
Variable fl : bytes -> option N.
Variable ftoa : N -> bytes.
Notation gstep := (gstep farith order hash verify).
Notation wstep := (wstep farith order hash verify u8 fl ftoa).
Notation whist := (whist farith order hash verify u8 fl ftoa).

Lemma effect_sv g en s sv o : g_sv (effect farith order g en s sv o) = sv.
Proof using.
  unfold effect. destruct s; try reflexivity; try (destruct (did o); [|destruct o as [| |[]|]; try reflexivity; destruct (e_init _); reflexivity]; try reflexivity).
  - destruct (aget ent_eqb id _); reflexivity.
  - destruct o; try reflexivity; destruct (aget ent_eqb id _); reflexivity.
Qed.
Lemma gstep_ok g o g' r : world_ok (sv_w (g_sv g)) -> match o with GDdl _ _ s => stmt_ok s | _ => True end -> gstep g o = Some (g', r) -> world_ok (sv_w (g_sv g')).
Proof using order_perm.
  intros W. destruct o as [u p|i en s|i id q|id|i|id w|id w|id u|i ok| |key salt]; cbn [WholeModel.gstep]; intros SO H.
  - unfold step in H. destruct (login _ _ _ _); injection H as <- _; exact W.
  - destruct (_ && _); [injection H as <- _; exact W|]. cbn [step] in H. destruct (nth_error _ i) as [se|]; [|injection H as <- _; exact W].
    pose proof (exec_ok order order_perm hash se (seen g en s) (sv_w (g_sv g)) s SO (proj1 W)) as E1. pose proof (exec_log se (seen g en s) (sv_w (g_sv g)) s SO W) as E2.
    destruct (exec_stmt _ _ _ _ _ _) as [w1 o1]. injection H as <- _. rewrite effect_sv. split; assumption.
  - destruct (nth_error _ i); [|injection H as <- _; exact W]. destruct (negb _); [injection H as <- _; exact W|]. destruct (aget ent_eqb id _); [|injection H as <- _; exact W].
    destruct (rstep _ _ _ _). injection H as <- _. exact W.
  - destruct (aget ent_eqb id _); [|injection H as <- _; exact W]. destruct (bstep _ _ _ _). injection H as <- _. exact W.
  - destruct (nth_error _ i) as [t|]; [|injection H as <- _; exact W]. destruct (aget ent_eqb _ _) as [nd|]; [|injection H as <- _; exact W].
    destruct (negb _); [injection H as <- _; exact W|]. destruct (nd_fl nd); [injection H as <- _; exact W|]. destruct (bstep _ _ _ _). injection H as <- _. exact W.
  - destruct (aget ent_eqb id _); [|injection H as <- _; exact W]. destruct (bstep _ _ _ _). injection H as <- _. exact W.
  - destruct (aget ent_eqb id _); [|injection H as <- _; exact W]. destruct (bstep _ _ _ _). injection H as <- _. exact W.
  - destruct (aget ent_eqb id _); [|injection H as <- _; exact W]. destruct (negb _); [injection H as <- _; exact W|]. destruct (bstep _ _ _ _). injection H as <- _. exact W.
  - destruct (nth_error _ i); [|injection H as <- _; exact W]. destruct ok; injection H as <- _; exact W.
  - cbn [step] in H. injection H as <- _. exact W.
  - destruct (flushing g); [injection H as <- _; exact W|]. cbn [step] in H. destruct (boot _ _ _ _ _) as [w1|] eqn:BO; [|discriminate H].
    destruct (load_nodes _ _ _ _); [|discriminate H]. injection H as <- _. eapply boot_ok; [exact (proj2 W)|exact BO].
Qed.
Lemma perform_ok g i cs en gn q p : world_ok (sv_w (g_sv g)) ->
  match perform farith order hash verify u8 fl ftoa g i cs en gn q p with
  | PdDead g' _ | PdSay g' _ _ _ => world_ok (sv_w (g_sv g'))
  | _ => True
  end.
Proof using order_perm.
  intros W. unfold perform. destruct (nth_error _ i) as [se|]; [|exact Logic.I]. destruct (lex u8 fl q p) as [ts|e|] eqn:L; [|exact W|exact Logic.I].
  apply lex_ok in L. destruct (dispatch _ _ _ _ _ ts) as [rq|e| | |] eqn:D; try exact Logic.I; try exact W.
  assert (DM : forall id st, match gstep g (GDml i id st) with Some (g', _) => world_ok (sv_w (g_sv g')) | None => True end).
  { intros id st. destruct (gstep g (GDml i id st)) as [[g' r]|] eqn:G; [|exact Logic.I]. eapply gstep_ok; [exact W| |exact G]. exact Logic.I. }
  assert (DX : forall id st, match (match gstep g (GDml i id st) with
                  | Some (g', GoStmt RoUb) => PdUb
                  | Some (g', GoStmt o) =>
                      let d := Some (GDml i id st, GoStmt o) in
                      match dml_resp ftoa g id st o with Some r => PdSay g' cs r d | None => PdDead g' d end
                  | Some (g', GoNoModel) => PdSay g' cs (RErr 100) (Some (GDml i id st, GoNoModel))
                  | _ => PdOff
                  end) with PdDead g' _ | PdSay g' _ _ _ => world_ok (sv_w (g_sv g')) | _ => True end).
  { intros id st. specialize (DM id st). destruct (gstep g (GDml i id st)) as [[g' [o|o|o| |o| | |]]|]; try exact Logic.I; [|exact DM].
    cbv zeta. destruct (dml_resp ftoa g id st o); destruct o; try exact Logic.I; exact DM. }
  destruct rq; cbn [dml_of]; try apply DX.
  - destruct (gstep g (GDdl i en s)) as [[g' [o|o|o| |o| | |]]|] eqn:G; try exact Logic.I. assert (W' : world_ok (sv_w (g_sv g'))).
    { eapply gstep_ok; [exact W| |exact G]. eapply dispatch_ok; eassumption. }
    destruct (ddl_resp o); exact W'.
  - destruct (do_use _ _ _ _). exact W.
  - exact W.
Qed.
Lemma wstep_ok x e x' b d : world_ok (sv_w (g_sv (x_g x))) -> wstep x e = Some (x', (b, d)) -> world_ok (sv_w (g_sv (x_g x'))).
Proof using order_perm.
  intros W. destruct e as [|j en gn ch|o]; cbn [WireModel.wstep].
  - intros H. injection H as <- _ _. exact W.
  - destruct (nth_error _ j) as [[c|i cs c|]|]; try discriminate.
    + unfold read_hello. destruct (hs_read c ch) as [c'|u p unread|e| | |]; try discriminate; intros H; try (injection H as <- _ _; exact W).
      destruct (u8 u); [|injection H as <- _ _; exact W].
      destruct (WholeModel.gstep farith order hash verify (x_g x) (GLogin u p)) as [[g' r]|] eqn:G; [|discriminate H].
      assert (W' : world_ok (sv_w (g_sv g'))) by (eapply gstep_ok; [exact W| |exact G]; exact Logic.I).
      destruct r as [[[]| |]| | | | | | |]; injection H as <- _ _; exact W'.
    + unfold read_query. destruct (q_read c ch) as [c1|[q p|] c1| |]; intros H; try (injection H as <- _ _; exact W).
      pose proof (perform_ok (x_g x) i cs en gn q p W) as P. destruct (perform _ _ _ _ _ _ _ _ _ _ _ _ _ _); try discriminate H; injection H as <- _ _; exact P.
  - destruct (is_back o) eqn:IB; [|discriminate]. destruct (WholeModel.gstep farith order hash verify (x_g x) o) as [[g' r]|] eqn:G; [|discriminate].
    intros H. injection H as <- _ _. eapply gstep_ok; [exact W| |exact G]. destruct o; try exact Logic.I. discriminate IB.
Qed.
Lemma whist_ok C key salt h x : whist C key salt h x -> world_ok (sv_w (g_sv (x_g x))).
Proof using order_perm.
  intros H. induction H as [|h x e x' b d H IH ST _]; [apply start_ok|]. eapply wstep_ok; eassumption.
Qed.
End Run.
