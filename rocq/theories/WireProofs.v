(** Proofs about the connections: what the dispatcher makes of a text; the packets of one connection
    among the events of all. *)
From Coq Require Import Strings.String List NArith Bool Arith Lia.
From Verif Require Import Bytes AMap DataModel CodecModel NumModel NetModel NetProps GnsModel RowModel RowSpec RowProofs LexModel LexSpec LexProofs LexProps
  ParseModel ParseSpec ParseSel ParseProps DdlModel DdlSpec DdlAll DdlProps ExecModel InspectModel
  DictModel DictProofs GnsProofs GnsHist BatchModel UpgradeModel WholeModel WholeSpec WireModel WireSpec.
Import ListNotations.

Ltac inj H := injection H as H.

Section Dispatch.
Variable gn : gens.
Notation dispatch := (ExecModel.dispatch (gn_text gn) (gn_bin gn) (gn_now gn)).

Lemma select_not_all cs f F r : loose_fields f F -> fields_ok f ->
  ExecModel.nonblocking (gn_text gn) (gn_bin gn) (gn_now gn) cs KsSelect (F ++ r) = of_pres RqSelect (select_of cs (F ++ r)).
Proof.
  intros L FO. assert (X : exists t F', F = t :: F' /\ t <> kmis KmAll).
  { destruct f as [l|].
    - destruct l as [|a l]; [destruct (FO eq_refl)|].
      assert (Y : exists t', field_toks (Some (a :: l)) = TId a :: t') by (unfold field_toks; destruct l; cbn; eauto). destruct Y as [t' Y].
      destruct L as [-> |[_ ->]]; rewrite Y; cbn [app]; eexists; eexists; (split; [reflexivity|discriminate]).
    - destruct L as [-> |[C _]]; [|destruct (C eq_refl)]. cbn. eexists; eexists; (split; [reflexivity|discriminate]). }
  destruct X as (t & F' & -> & NA). cbn [app nonblocking]. destruct t as [| [|[]]| |]; try reflexivity. destruct (NA eq_refl).
Qed.

Lemma data_dispatch root cs ts id st : data_stmt gn cs ts id st -> exists r, dispatch root cs ts = DReq r /\ dml_of r = Some (id, st).
Proof.
  intros D. destruct D as [r e d L W|u e d L N1 N2 W|r k e l w K W|r k e w K W|f F en e LF FO N L|f F en e w k LF FO N WO K|f F en e n LF FO N];
    cbn [ExecModel.dispatch kst is_blocking].
  - cbn [nonblocking]. rewrite (proj2 (C46_insert _ _ _ cs r e d)); [|auto]. eexists. split; reflexivity.
  - cbn [nonblocking]. rewrite (proj2 (C46_insert _ _ _ cs _ e d)); [eexists; split; reflexivity|]. split; [exact L|]. right. split; [auto|]. eauto.
  - cbn [nonblocking]. rewrite (proj2 (C46_update cs _ e l w)); [eexists; split; reflexivity|]. eauto.
  - cbn [nonblocking]. rewrite (proj2 (C46_delete cs _ e w)); [eexists; split; reflexivity|]. eauto.
  - rewrite (select_not_all cs f F _ LF FO).
    rewrite (proj2 (C46_select cs _ e f nil)); [eexists; split; reflexivity|]. exists F, en. auto 7.
  - rewrite (select_not_all cs f F _ LF FO).
    rewrite (proj2 (C46_select cs _ e f w)); [eexists; split; reflexivity|]. exists F, en. eauto 9.
  - cbn [nonblocking kmis]. rewrite (proj2 (C46_select_all cs _ e f n)); [eexists; split; reflexivity|]. eauto 9.
Qed.

Lemma blocking_ddl root k r q : blocking root k r = DReq q -> exists s, q = RqDdl s.
Proof.
  unfold blocking. destruct (negb _); [discriminate|]. destruct r as [|a [|b r]]; try discriminate.
  destruct k; try discriminate; repeat (match goal with |- context [if ?x then _ else _] => destruct x end);
    try discriminate; unfold of_pres; match goal with |- context [match ?p with _ => _ end] => destruct p; try discriminate end; intros E; inj E; subst; eauto.
Qed.

Lemma dispatch_data root cs ts r id st : dispatch root cs ts = DReq r -> dml_of r = Some (id, st) -> data_stmt gn cs ts id st.
Proof.
  intros D M. destruct ts as [|[|[k|]| |] t]; try discriminate D. cbn [ExecModel.dispatch] in D.
  destruct (is_blocking k) eqn:B; [apply blocking_ddl in D as [s ->]; discriminate M|].
  change (TKw (KStmt k)) with (kst k).
  destruct k; try discriminate B; cbn [nonblocking] in D; try discriminate D.
  - destruct (use_of t); try discriminate D. inj D. subst r. discriminate M.
  - destruct (inspect_of cs t); try discriminate D. inj D. subst r. discriminate M.
  - destruct (insert_of _ _ _ cs t) as [i| | | |] eqn:P; try discriminate D. inj D. subst r. destruct i as [e d]. inj M. subst id st.
    apply C46_insert in P. destruct P as [L [P|((N1 & N2) & u & -> & P)]]; [constructor|apply ds_insert_comma]; auto.
  - assert (SEL : forall t, of_pres RqSelect (select_of cs t) = DReq r -> data_stmt gn cs (kst KsSelect :: t) id st).
    { intros t0 D0. destruct (select_of cs t0) as [i| | | |] eqn:P; try discriminate D0. inj D0. subst r. destruct i as [e f w]. inj M. subst id st.
      apply C46_select in P. destruct P as (F & en & LF & FO & N & [(-> & L & ->)|(WO & k & K & ->)]); [apply ds_select_full|apply ds_select]; auto. }
    destruct t as [|a t]; [exact (SEL _ D)|].
    assert (C : a = kmis KmAll \/ of_pres RqSelect (select_of cs (a :: t)) = DReq r) by (destruct a as [|[|[]]| |]; auto).
    destruct C as [-> |C]; [|exact (SEL _ C)]. cbn [kmis] in D.
    destruct (select_all_of cs t) as [i| | | |] eqn:P; try discriminate D. inj D. subst r. destruct i as [e f n]. inj M. subst id st.
    apply C46_select_all in P. destruct P as (F & en & LF & FO & N & ->). apply ds_select_all; auto.
  - destruct (update_of cs t) as [i| | | |] eqn:P; try discriminate D. inj D. subst r. destruct i as [e l w]. inj M. subst id st.
    apply C46_update in P. destruct P as (u & k & -> & K & P). apply ds_update; auto.
  - destruct (delete_of cs t) as [i| | | |] eqn:P; try discriminate D. inj D. subst r. destruct i as [e w]. inj M. subst id st.
    apply C46_delete in P. destruct P as (u & k & -> & K & P). apply ds_delete; auto.
Qed.

Definition sysctl_text (ts : list token) : Prop := exists r, ts = kst KsSysctl :: r.

Lemma schema_dispatch root cs ts s : schema_stmt ts s -> (root = true \/ sysctl_text ts) -> dispatch root cs ts = DReq (RqDdl s).
Proof.
  intros D R. destruct D as [r s W|r s L W|r s W|r s W|r s W|r s W|r s W L]; cbn [ExecModel.dispatch kst is_blocking].
  1-6: destruct R as [-> |[x E]]; [|discriminate E]; unfold blocking; cbn [orb negb].
  - pose proof (proj2 (proj1 (C60_space_statements r s)) W) as P. destruct W as [nx k t d W]. destruct nx; cbn [nx_toks app] in *; unfold kmis in *; cbn [is_misc is_ident orb andb]; rewrite P; reflexivity.
  - pose proof (proj2 (C60_create_model_partial r s) (conj L W)) as P. destruct W as [nx e t fs t1 d I W]. destruct nx; cbn [nx_toks app full] in *; unfold kmis in *; cbn [is_misc is_ident orb andb]; rewrite P; reflexivity.
  - pose proof (proj2 (proj1 (proj2 (C60_space_statements r s))) W) as P. destruct W as [k t d W]. cbn [app] in *; unfold kmis in *; cbn [is_misc is_ident orb andb]; rewrite P; reflexivity.
  - pose proof (proj2 (proj1 (C60_model_statements r s)) W) as P. destruct W as [e t l W|e t l W|e t l W]; cbn [full app] in *; unfold kmis in *; cbn [is_misc is_ident orb andb]; rewrite P; reflexivity.
  - pose proof (proj2 (proj2 (proj2 (C60_space_statements r s))) W) as P. destruct W as [ex f F k W]. destruct ex, W; cbn [ex_toks app] in *; unfold kmis in *; cbn [is_misc is_ident orb andb]; rewrite P; reflexivity.
  - pose proof (proj2 (proj2 (C60_model_statements r s)) W) as P. destruct W as [ex f F e W]. destruct ex, W; cbn [ex_toks app full] in *; unfold kmis in *; cbn [is_misc is_ident orb andb]; rewrite P; reflexivity.
  - unfold blocking. cbn [is_sysctl]. rewrite orb_true_r. cbn [negb]. pose proof (proj2 (C60_sysctl_partial r s) (conj W L)) as P.
    assert (X : exists a b r', r = a :: b :: r') by (destruct W; eauto). destruct X as (a & b & r' & ->). rewrite P. reflexivity.
Qed.

Lemma schema_refused cs ts s : schema_stmt ts s -> ~ sysctl_text ts -> dispatch false cs ts = DErr DxPermission.
Proof.
  intros D N. destruct D; cbn [ExecModel.dispatch kst is_blocking blocking orb is_sysctl negb]; try reflexivity. destruct N. unfold sysctl_text. eauto.
Qed.

Lemma misc_is k t : is_misc k t = true -> t = kmis k.
Proof. destruct t as [|[|k']| |]; cbn; try discriminate. destruct k, k'; try discriminate; reflexivity. Qed.

Lemma dispatch_schema root cs ts s : dispatch root cs ts = DReq (RqDdl s) -> schema_stmt ts s /\ (root = true \/ sysctl_text ts).
Proof.
  intros D. destruct ts as [|[|[k|]| |] t]; try discriminate D. cbn [ExecModel.dispatch] in D. change (TKw (KStmt k)) with (kst k).
  destruct (is_blocking k) eqn:B.
  - unfold blocking in D. destruct (root || is_sysctl k) eqn:R; cbn [negb] in D; [|discriminate D].
    assert (RR : root = true \/ sysctl_text (kst k :: t)).
    { apply orb_true_iff in R as [R|R]; [auto|]. right. destruct k; try discriminate R. exists t. reflexivity. }
    split; [|exact RR]. destruct t as [|a [|b t]]; try discriminate D.
    destruct k; try discriminate B.
    + destruct (sysctl_of _) as [x| | | |] eqn:P; try discriminate D. inj D. subst x. apply C60_sysctl_partial in P as [P1 P2]. constructor; assumption.
    + destruct (is_misc KmSpace a && _) eqn:C1.
      { apply andb_true_iff in C1 as [C1 _]. apply misc_is in C1. subst a. destruct (create_space_of _) as [x| | | |] eqn:P; try discriminate D. inj D. subst x. constructor. apply (proj1 (C60_space_statements _ _)). exact P. }
      destruct (is_misc KmModel a && _) eqn:C2; [|discriminate D].
      apply andb_true_iff in C2 as [C2 _]. apply misc_is in C2. subst a. destruct (create_model_of _) as [x| | | |] eqn:P; try discriminate D. inj D. subst x. apply C60_create_model_partial in P as [P1 P2]. constructor; assumption.
    + destruct (is_misc KmSpace a && _) eqn:C1.
      { apply andb_true_iff in C1 as [C1 _]. apply misc_is in C1. subst a. destruct (alter_space_of _) as [x| | | |] eqn:P; try discriminate D. inj D. subst x. constructor. apply (proj1 (proj2 (C60_space_statements _ _))). exact P. }
      destruct (is_misc KmModel a && _) eqn:C2; [|discriminate D].
      apply andb_true_iff in C2 as [C2 _]. apply misc_is in C2. subst a. destruct (alter_model_of _) as [x| | | |] eqn:P; try discriminate D. inj D. subst x. constructor. apply (proj1 (C60_model_statements _ _)). exact P.
    + destruct (is_misc KmSpace a && _) eqn:C1.
      { apply andb_true_iff in C1 as [C1 _]. apply misc_is in C1. subst a. destruct (drop_space_of _) as [x| | | |] eqn:P; try discriminate D. inj D. subst x. constructor. apply (proj2 (proj2 (C60_space_statements _ _))). exact P. }
      destruct (is_misc KmModel a && _) eqn:C2; [|discriminate D].
      apply andb_true_iff in C2 as [C2 _]. apply misc_is in C2. subst a. destruct (drop_model_of _) as [x| | | |] eqn:P; try discriminate D. inj D. subst x. constructor. apply (proj2 (C60_model_statements _ _)). exact P.
  - exfalso. destruct k; try discriminate B; cbn [nonblocking] in D; try discriminate D; try (match type of D with of_pres _ ?p = _ => destruct p; discriminate D end).
    destruct t as [|[|[|[]]| |] t]; match type of D with of_pres _ ?p = _ => destruct p; discriminate D end.
Qed.

Lemma dispatch_use root cs ts u : dispatch root cs ts = DReq (RqUse u) <-> exists r, ts = kst KsUse :: r /\ wf_use r (use_req_of u).
Proof.
  split.
  - intros D. destruct ts as [|[|[k|]| |] t]; try discriminate D. cbn [ExecModel.dispatch] in D.
    destruct (is_blocking k) eqn:B; [apply blocking_ddl in D as [s X]; discriminate X|].
    destruct k; try discriminate B; cbn [nonblocking] in D; try discriminate D; try (match type of D with of_pres _ ?p = _ => destruct p; discriminate D end).
    + destruct (use_of t) as [x| | | |] eqn:P; try discriminate D. inj D. subst x. exists t. split; [reflexivity|]. apply C60_use. exact P.
    + destruct t as [|[|[|[]]| |] t]; match type of D with of_pres _ ?p = _ => destruct p; discriminate D end.
  - intros (r & -> & W). apply C60_use in W. cbn [ExecModel.dispatch kst is_blocking nonblocking]. rewrite W. reflexivity.
Qed.
Lemma dispatch_inspect root cs ts i : dispatch root cs ts = DReq (RqInspect i) <-> exists r, ts = kst KsInspect :: r /\ wf_inspect cs r (insp_req_of i).
Proof.
  split.
  - intros D. destruct ts as [|[|[k|]| |] t]; try discriminate D. cbn [ExecModel.dispatch] in D.
    destruct (is_blocking k) eqn:B; [apply blocking_ddl in D as [s X]; discriminate X|].
    destruct k; try discriminate B; cbn [nonblocking] in D; try discriminate D; try (match type of D with of_pres _ ?p = _ => destruct p; discriminate D end).
    + destruct (inspect_of cs t) as [x| | | |] eqn:P; try discriminate D. inj D. subst x. exists t. split; [reflexivity|]. apply C60_inspect. exact P.
    + destruct t as [|[|[|[]]| |] t]; match type of D with of_pres _ ?p = _ => destruct p; discriminate D end.
  - intros (r & -> & W). apply C60_inspect in W. cbn [ExecModel.dispatch kst is_blocking nonblocking]. rewrite W. reflexivity.
Qed.
End Dispatch.

(** ** Connections *)

Local Open Scope nat_scope.

Lemma put_nth_same {A} (j : nat) (c : A) l : j < length l -> nth_error (put_nth j c l) j = Some c.
Proof. revert j. induction l as [|a l IH]; intros [|j] L; cbn in *; try lia; [reflexivity|]. apply IH. lia. Qed.
Lemma put_nth_other {A} (j j' : nat) (c : A) l : j' <> j -> nth_error (put_nth j c l) j' = nth_error l j'.
Proof. revert j j'. induction l as [|a l IH]; intros [|j] [|j'] L; cbn; try reflexivity; try lia. apply IH. lia. Qed.
Lemma nth_lt {A} (l : list A) j a : nth_error l j = Some a -> j < length l.
Proof. intros E. apply nth_error_Some. congruence. Qed.

Lemma received_snoc j h e : received j (h ++ [e]) = received j h ++ received1 j e.
Proof. unfold received. rewrite flat_map_app. cbn [flat_map]. rewrite app_nil_r. reflexivity. Qed.
Lemma trace_snoc h e : trace (h ++ [e]) = trace h ++ match snd (snd e) with Some x => [x] | None => [] end.
Proof. unfold trace. rewrite flat_map_app. cbn [flat_map]. rewrite app_nil_r. reflexivity. Qed.
Lemma trace_app h1 h2 : trace (h1 ++ h2) = trace h1 ++ trace h2.
Proof. unfold trace. apply flat_map_app. Qed.

Lemma q_run_snoc c l ch c1 : q_run c l = ([], QRunning c1) -> q_run c (l ++ [ch]) = q_run c1 [ch].
Proof.
  revert c. induction l as [|a l IH]; intros c H.
  - cbn in H. injection H as <-. reflexivity.
  - cbn [q_run app] in *. destruct (q_read c a) as [c2|e c2| |]; try discriminate H; [auto|].
    destruct (q_run c2 l). discriminate H.
Qed.
Lemma unfinished_pre l ch : unfinished (l ++ [ch]) -> unfinished l.
Proof.
  intros (P & q & p & ext & K & L & F & N & E). exists P, q, p, (ch ++ ext). apply Forall_app in F as [F1 F2]. inversion F2; subst.
  split; [exact K|]. split; [exact L|]. split; [exact F1|]. split; [destruct ch; [contradiction|discriminate]|].
  rewrite concat_app in *. cbn [concat] in *. rewrite app_nil_r, <- app_assoc in *. reflexivity.
Qed.
Lemma completed_unfinished l ch q p : completed_by l ch q p -> unfinished l.
Proof. intros (P & K & L & F & N & E). exists P, q, p, ch. auto. Qed.

Section Conn.
Variable farith : aop -> N -> N -> N.
Variable order : fieldmap -> fieldmap.
Variable hash : bytes -> N -> bytes.
Variable verify : bytes -> bytes -> bool.
Variable u8 : bytes -> bool.
Variable fl : bytes -> option N.
Variable ftoa : N -> bytes.
Notation gstep := (gstep farith order hash verify).
Notation ghist := (ghist farith order hash verify).
Notation perform := (perform farith order hash verify u8 fl ftoa).
Notation wstep := (wstep farith order hash verify u8 fl ftoa).
Notation wruns := (wruns farith order hash verify u8 fl ftoa).
Notation whist := (whist farith order hash verify u8 fl ftoa).

Lemma wruns_app C x0 h1 x1 h2 x2 : wruns C x0 h1 x1 -> wruns C x1 h2 x2 -> wruns C x0 (h1 ++ h2) x2.
Proof using.
  intros A B. induction B as [|h x e x' b d B IH ST CC]; [rewrite app_nil_r; exact A|]. rewrite app_assoc. econstructor; eassumption.
Qed.
Lemma wruns_split C x0 h1 h2 x2 : wruns C x0 (h1 ++ h2) x2 -> exists x1, wruns C x0 h1 x1 /\ wruns C x1 h2 x2.
Proof using.
  revert x2. induction h2 as [|e h2 IH] using rev_ind; intros x2 H.
  - rewrite app_nil_r in H. exists x2. split; [exact H|constructor].
  - rewrite app_assoc in H. inversion H as [E|h x e0 x' b d B ST CC E]; [destruct (h1 ++ h2); discriminate E|].
    apply app_inj_tail in E as [-> <-]. destruct (IH _ B) as (x1 & A1 & A2). exists x1. split; [exact A1|]. econstructor; eassumption.
Qed.

(** one query is at most one event underneath *)
Lemma perform_event g i cs en gn q p :
  match perform g i cs en gn q p with
  | PdOff | PdUb => True
  | PdDead g' d | PdSay g' _ _ d => match d with Some (o, r) => gstep g o = Some (g', r) | None => g' = g end
  end.
Proof using.
  unfold WireModel.perform. destruct (nth_error _ i) as [se|]; [|exact Logic.I].
  destruct (lex u8 fl q p) as [ts|e|]; [|reflexivity|exact Logic.I].
  destruct (dispatch _ _ _ _ _ _) as [r|e| | |]; try exact Logic.I; try reflexivity.
  assert (D : forall r0, match (match dml_of r0 with
      | None => PdOff
      | Some (id, st) => match gstep g (GDml i id st) with
          | Some (g', GoStmt RoUb) => PdUb
          | Some (g', GoStmt o) => match dml_resp ftoa g id st o with Some r => PdSay g' cs r (Some (GDml i id st, GoStmt o)) | None => PdDead g' (Some (GDml i id st, GoStmt o)) end
          | Some (g', GoNoModel) => PdSay g' cs (RErr 100) (Some (GDml i id st, GoNoModel))
          | _ => PdOff end end) with
     | PdOff | PdUb => True
     | PdDead g' d | PdSay g' _ _ d => match d with Some (o, r) => gstep g o = Some (g', r) | None => g' = g end end).
  { intros r0. destruct (dml_of r0) as [[id st]|]; [|exact Logic.I]. destruct (gstep g (GDml i id st)) as [[g' [y|y|y| |y| | |]]|] eqn:ST; try exact Logic.I; [|exact ST].
    destruct y; try exact Logic.I; destruct (dml_resp _ _ _ _ _); exact ST. }
  destruct r as [s|u|n|n|n|n|n|n]; try (apply D).
  - destruct (gstep g (GDdl i en s)) as [[g' [y|y|y| |y| | |]]|] eqn:ST; try exact Logic.I. destruct (ddl_resp y); exact ST.
  - destruct (do_use unit (mk_conn se cs) _ u) as [c a]. reflexivity.
  - reflexivity.
Qed.

Lemma wstep_event x e x' b d : wstep x e = Some (x', (b, d)) ->
  match d with Some (o, r) => gstep (x_g x) o = Some (x_g x', r) | None => x_g x' = x_g x end.
Proof using.
  intros H. destruct e as [|j en gn ch|o]; cbn [WireModel.wstep] in H.
  - injection H as <- <- <-. reflexivity.
  - destruct (nth_error (x_co x) j) as [[c|i cs c|]|]; try discriminate H.
    + unfold read_hello in H. destruct (hs_read c ch) as [c'|u p un|er| | |]; try discriminate H; try (injection H as <- <- <-; reflexivity).
      destruct (u8 u); [|injection H as <- <- <-; reflexivity].
      destruct (gstep (x_g x) (GLogin u p)) as [[g' r]|] eqn:ST; [|discriminate H].
      destruct r as [[[]| |]|y|y| |y| | |]; injection H as <- <- <-; exact ST.
    + unfold read_query in H. destruct (q_read c ch) as [c'|[q p|] c'| |]; try (injection H as <- <- <-; reflexivity).
      pose proof (perform_event (x_g x) i cs en gn q p) as PE.
      destruct (perform (x_g x) i cs en gn q p) as [| |g' d'|g' cs' r d']; try discriminate H; injection H as <- <- <-; exact PE.
  - destruct (is_back o); [|discriminate H]. destruct (gstep (x_g x) o) as [[g' r]|] eqn:ST; [|discriminate H]. injection H as <- <- <-. exact ST.
Qed.

(** the events underneath are a history of the whole server *)
Lemma whist_ghist C key salt h x : whist C key salt h x -> ghist C key salt (trace h) (x_g x).
Proof using.
  intros H. induction H as [|h x e x' b d H IH ST CC]; [constructor|]. rewrite trace_snoc. cbn [snd]. pose proof (wstep_event _ _ _ _ _ ST) as EV.
  destruct d as [[o r]|]; [|rewrite app_nil_r, EV; exact IH]. destruct CC as (C1 & C2 & C3 & C4). econstructor; eauto.
Qed.

(** sessions are only added, but for a restart *)
Lemma gstep_sess g o g' r : gstep g o = Some (g', r) ->
  (exists k z, o = GRestart k z /\ r = GoDone) \/ (exists l, sv_sess (g_sv g') = sv_sess (g_sv g) ++ l).
Proof using.
  intros H. assert (SAME : forall g1, sv_sess (g_sv g1) = sv_sess (g_sv g) -> exists l, sv_sess (g_sv g1) = sv_sess (g_sv g) ++ l) by (intros g1 ->; exists []; rewrite app_nil_r; reflexivity).
  destruct o as [u p|i en s|i id q|id|i|id w|id w|id u|i ok| |k z]; cbn [WholeModel.gstep] in H.
  - right. cbn [GnsModel.step] in H. destruct (login verify _ u p); injection H as <- <-; cbn; [eexists; reflexivity|apply SAME; reflexivity].
  - right. destruct (wants_models s && flushing g); [injection H as <- <-; auto|]. cbn [GnsModel.step] in H.
    destruct (nth_error _ i) as [se|]; [|injection H as <- <-; auto]. destruct (exec_stmt _ _ _ _ _ _) as [w o]. injection H as <- <-. apply SAME.
    unfold effect. repeat (match goal with |- context [match ?x with _ => _ end] => destruct x end); reflexivity.
  - right. destruct (nth_error _ i); [|injection H as <- <-; auto]. destruct (negb (is_dml q)); [injection H as <- <-; auto|].
    destruct (aget ent_eqb id (g_nodes g)); [|injection H as <- <-; auto]. destruct (rstep _ _ _ _). injection H as <- <-. auto.
  - right. destruct (aget ent_eqb id (g_nodes g)) as [nd|]; [|injection H as <- <-; auto]. destruct (bstep _ _ _ _). injection H as <- <-. auto.
  - right. destruct (nth_error (g_tasks g) i) as [t|]; [|injection H as <- <-; auto]. destruct (aget ent_eqb _ (g_nodes g)) as [nd|]; [|injection H as <- <-; auto].
    destruct (negb _); [injection H as <- <-; auto|]. destruct (nd_fl nd); [injection H as <- <-; auto|]. destruct (bstep _ _ _ _). injection H as <- <-. auto.
  - right. destruct (aget ent_eqb id (g_nodes g)) as [nd|]; [|injection H as <- <-; auto]. destruct (bstep _ _ _ _). injection H as <- <-. auto.
  - right. destruct (aget ent_eqb id (g_nodes g)) as [nd|]; [|injection H as <- <-; auto]. destruct (bstep _ _ _ _). injection H as <- <-. auto.
  - right. destruct (aget ent_eqb id (g_nodes g)) as [nd|]; [|injection H as <- <-; auto]. destruct (negb _); [injection H as <- <-; auto|]. destruct (bstep _ _ _ _). injection H as <- <-. auto.
  - right. destruct (nth_error (g_dels g) i); [|injection H as <- <-; auto]. destruct ok; injection H as <- <-; auto.
  - right. cbn [GnsModel.step] in H. injection H as <- <-. auto.
  - destruct (flushing g); [injection H as <- <-; auto|]. left. exists k, z. split; [reflexivity|].
    destruct (GnsModel.step _ _ _ _ _) as [[sv y]|]; [|discriminate H]. destruct (load_nodes _ _ _ _); [|discriminate H]. injection H as <- <-. reflexivity.
Qed.

(** what an event does to a connection other than by its own reads *)
Lemma wstep_other x e x' b d j : wstep x e = Some (x', (b, d)) -> (forall en gn ch, e <> WRecv j en gn ch) ->
  nth_error (x_co x') j = nth_error (x_co x) j \/
  (nth_error (x_co x) j = None /\ nth_error (x_co x') j = Some (WcHello hc_init) /\ e = WConnect) \/
  (restarted (e, (b, d)) /\ nth_error (x_co x') j <> None -> nth_error (x_co x') j = Some WcOff) /\ restarted (e, (b, d)).
Proof using.
  intros H N. destruct e as [|j' en gn ch|o]; cbn [WireModel.wstep] in H.
  - injection H as <- <- <-. cbn [x_co]. destruct (le_lt_dec (length (x_co x)) j) as [L|L].
    + destruct (Nat.eq_dec j (length (x_co x))) as [->|NE].
      * right. left. split; [apply nth_error_None; lia|]. split; [|reflexivity]. rewrite nth_error_app2, Nat.sub_diag by lia. reflexivity.
      * left. rewrite (proj2 (nth_error_None (x_co x) j)) by lia. apply nth_error_None. rewrite app_length. cbn. lia.
    + left. apply nth_error_app1. exact L.
  - assert (NJ : j <> j') by (intros ->; eapply N; reflexivity). left.
    destruct (nth_error (x_co x) j') as [[c|i cs c|]|] eqn:GJ; try discriminate H.
    + unfold read_hello in H. destruct (hs_read c ch) as [c'|u p un|er| | |]; try discriminate H; try (injection H as <- <- <-; cbn [x_co]; apply put_nth_other; exact NJ).
      destruct (u8 u); [|injection H as <- <- <-; cbn [x_co]; apply put_nth_other; exact NJ].
      destruct (gstep (x_g x) (GLogin u p)) as [[g' r]|] eqn:ST; [|discriminate H].
      destruct r as [[[]| |]|y|y| |y| | |]; injection H as <- <- <-; cbn [x_co]; apply put_nth_other; exact NJ.
    + unfold read_query in H. destruct (q_read c ch) as [c'|[q p|] c'| |]; try (injection H as <- <- <-; cbn [x_co]; apply put_nth_other; exact NJ).
      destruct (perform (x_g x) i cs en gn q p) as [| |g' d'|g' cs' r d']; try discriminate H; injection H as <- <- <-; cbn [x_co]; apply put_nth_other; exact NJ.
  - destruct (is_back o); [|discriminate H]. destruct (gstep (x_g x) o) as [[g' r]|] eqn:ST; [|discriminate H]. injection H as <- <- <-. cbn [x_co].
    destruct o; auto. destruct r; auto. right. right. split; [|exact Logic.I]. intros [_ X]. rewrite nth_error_map in *. destruct (nth_error (x_co x) j); [reflexivity|destruct (X eq_refl)].
Qed.

(** a connection stays as it is while its packet is not complete *)
Lemma quiet C x1 h2 x2 j i cs : nth_error (x_co x1) j = Some (WcOn i cs qc_reset) -> wruns C x1 h2 x2 ->
  Forall (fun e => ~ restarted e) h2 -> unfinished (received j h2) ->
  exists c, nth_error (x_co x2) j = Some (WcOn i cs c) /\ q_run qc_reset (received j h2) = ([], QRunning c) /\
    forall en gn ch b d, In (WRecv j en gn ch, (b, d)) h2 -> b = [] /\ d = None.
Proof using.
  intros S0 R. induction R as [|h x e x' b d R IH ST CC]; intros NR UF.
  - exists qc_reset. split; [exact S0|]. split; [reflexivity|]. intros en gn ch b d [].
  - apply Forall_app in NR as [NR1 NR2]. inversion NR2; subst. rewrite received_snoc in *.
    assert (OTHER : (forall en gn ch, e <> WRecv j en gn ch) -> exists c, nth_error (x_co x') j = Some (WcOn i cs c) /\ q_run qc_reset (received j h ++ received1 j (e, (b, d))) = ([], QRunning c) /\
       forall en gn ch b0 d0, In (WRecv j en gn ch, (b0, d0)) (h ++ [(e, (b, d))]) -> b0 = [] /\ d0 = None).
    { intros NE. assert (RN : received1 j (e, (b, d)) = []).
      { destruct e as [|j' en gn ch|o]; try reflexivity. cbn. destruct (Nat.eq_dec j' j) as [->|]; [destruct (NE en gn ch eq_refl)|reflexivity]. }
      rewrite RN, app_nil_r in *. destruct (IH NR1 UF) as (c & E1 & E2 & E3). exists c. split; [|split; [exact E2|]].
      - destruct (wstep_other _ _ _ _ _ j ST NE) as [E|[(E & _)|[_ E]]]; [congruence|congruence|contradiction].
      - intros en gn ch b0 d0 I. apply in_app_or in I as [I|[I|[]]]; [eauto|]. injection I as E _ _. destruct (NE _ _ _ E). }
    destruct e as [|j' en gn ch|o]; [apply OTHER; discriminate| |apply OTHER; discriminate].
    destruct (Nat.eq_dec j' j) as [->|NE]; [|apply OTHER; congruence].
    assert (R1 : received1 j (WRecv j en gn ch, (b, d)) = [ch]) by (cbn; destruct (Nat.eq_dec j j); congruence).
    rewrite R1 in *. destruct (IH NR1 (unfinished_pre _ _ UF)) as (c & E1 & E2 & E3).
    rewrite (q_run_snoc _ _ ch _ E2). destruct UF as (P & q & p & ext & K & L & F & N & E).
    destruct (C30_packet_delivered_intact P q p _ ext K L F E) as [PR _]. destruct (PR N) as [c1 PR1]. rewrite (q_run_snoc _ _ ch _ E2) in PR1.
    cbn [q_run] in PR1 |- *. destruct (q_read c ch) as [c2|ev c2| |] eqn:QR; try discriminate PR1. injection PR1 as ->.
    cbn [WireModel.wstep] in ST. rewrite E1 in ST. unfold read_query in ST. rewrite QR in ST. injection ST as <- <- <-.
    exists c1. split; [cbn [x_co]; apply put_nth_same; eapply nth_lt; exact E1|]. split; [reflexivity|].
    intros en0 gn0 ch0 b0 d0 I. apply in_app_or in I as [I|[I|[]]]; [eauto|]. injection I as <- <- <- <- <-. auto.
Qed.

(** ... and the read that completes the packet performs its query *)
Lemma complete C x1 h2 x2 j i cs ch q p en gn : nth_error (x_co x1) j = Some (WcOn i cs qc_reset) -> wruns C x1 h2 x2 ->
  Forall (fun e => ~ restarted e) h2 -> completed_by (received j h2) ch q p ->
  j < length (x_co x2) /\ wstep x2 (WRecv j en gn ch) =
    match perform (x_g x2) i cs en gn q p with
    | PdOff | PdUb => None
    | PdDead g' d => Some (mk_wst g' (put_nth j WcOff (x_co x2)), ([], d))
    | PdSay g' cs' r d => Some (mk_wst g' (put_nth j (WcOn i cs' qc_reset) (x_co x2)), (respond r, d))
    end.
Proof using.
  intros S0 R NR CB. destruct (quiet _ _ _ _ _ _ _ S0 R NR (completed_unfinished _ _ _ _ CB)) as (c & E1 & E2 & _).
  split; [eapply nth_lt; exact E1|]. destruct CB as (P & K & L & F & N & E).
  destruct (C30_packet_delivered_intact P q p (received j h2 ++ [ch]) [] K L) as [_ PR].
  - apply Forall_app. auto.
  - rewrite concat_app. cbn [concat]. rewrite !app_nil_r. exact E.
  - specialize (PR eq_refl). rewrite (q_run_snoc _ _ ch _ E2) in PR. cbn [q_run] in PR.
    cbn [WireModel.wstep]. rewrite E1. unfold read_query. destruct (q_read c ch) as [c2|ev c2| |]; try discriminate PR. injection PR as -> ->. reflexivity.
Qed.

(** a logged-in connection has its session *)
Lemma on_session C key salt h x j i cs c : whist C key salt h x -> nth_error (x_co x) j = Some (WcOn i cs c) ->
  exists se, nth_error (sv_sess (g_sv (x_g x))) i = Some se.
Proof using.
  intros H. revert j i cs c. induction H as [|h x e x' b d H IH ST CC]; intros j i cs c E.
  - cbn in E. destruct j; discriminate E.
  - pose proof (wstep_event _ _ _ _ _ ST) as EV.
    assert (KEEP : forall i0 se, (d = None \/ exists o r, d = Some (o, r) /\ forall k z, o <> GRestart k z) -> nth_error (sv_sess (g_sv (x_g x))) i0 = Some se -> nth_error (sv_sess (g_sv (x_g x'))) i0 = Some se).
    { intros i0 se D N0. destruct D as [-> |(o & r & -> & NR)]; [rewrite EV; exact N0|].
      apply gstep_sess in EV as [(k & z & -> & _)|[l EV]]; [destruct (NR k z eq_refl)|]. rewrite EV, nth_error_app1; [exact N0|eapply nth_lt; exact N0]. }
    destruct e as [|j' en gn ch|o].
    + destruct (wstep_other _ _ _ _ _ j ST) as [X|[(_ & X & _)|[_ []]]]; [discriminate| |congruence].
      cbn [WireModel.wstep] in ST. injection ST as <- <- <-. rewrite X in E. destruct (IH _ _ _ _ E) as [se Y]. eauto.
    + assert (ND : d = None \/ exists o r, d = Some (o, r) /\ forall k z, o <> GRestart k z).
      { cbn [WireModel.wstep] in ST. destruct (nth_error (x_co x) j') as [[c0|i0 cs0 c0|]|]; try discriminate ST.
        - unfold read_hello in ST. destruct (hs_read c0 ch) as [c'|u p un|er| | |]; try discriminate ST; try (injection ST as <- <- <-; auto).
          destruct (u8 u); [|injection ST as <- <- <-; auto]. destruct (gstep (x_g x) (GLogin u p)) as [[g' r]|]; [|discriminate ST].
          right. exists (GLogin u p), r. split; [|discriminate]. destruct r as [[[]| |]|y|y| |y| | |]; injection ST as <- <- <-; reflexivity.
        - unfold read_query in ST. destruct (q_read c0 ch) as [c'|[q p|] c'| |]; try (injection ST as <- <- <-; auto).
          assert (PR : forall g1 cs1 r1 d1, perform (x_g x) i0 cs0 en gn q p = PdSay g1 cs1 r1 d1 \/ perform (x_g x) i0 cs0 en gn q p = PdDead g1 d1 ->
            d1 = None \/ exists o r, d1 = Some (o, r) /\ forall k z, o <> GRestart k z).
          { intros g1 cs1 r1 d1. unfold WireModel.perform. destruct (nth_error _ i0) as [se|]; [|intros [X|X]; discriminate X].
            destruct (lex u8 fl q p) as [ts|er|]; try (intros [X|X]; try discriminate X; injection X; intros; subst; auto; fail).
            destruct (dispatch _ _ _ _ _ _) as [rq|er| | |]; try (intros [X|X]; try discriminate X; injection X; intros; subst; auto; fail).
            assert (D : forall r0, match dml_of r0 with None => PdOff | Some (id, st) => match gstep (x_g x) (GDml i0 id st) with
                | Some (g', GoStmt RoUb) => PdUb
                | Some (g', GoStmt o) => match dml_resp ftoa (x_g x) id st o with Some r => PdSay g' cs0 r (Some (GDml i0 id st, GoStmt o)) | None => PdDead g' (Some (GDml i0 id st, GoStmt o)) end
                | Some (g', GoNoModel) => PdSay g' cs0 (RErr 100) (Some (GDml i0 id st, GoNoModel))
                | _ => PdOff end end = PdSay g1 cs1 r1 d1 \/
              match dml_of r0 with None => PdOff | Some (id, st) => match gstep (x_g x) (GDml i0 id st) with
                | Some (g', GoStmt RoUb) => PdUb
                | Some (g', GoStmt o) => match dml_resp ftoa (x_g x) id st o with Some r => PdSay g' cs0 r (Some (GDml i0 id st, GoStmt o)) | None => PdDead g' (Some (GDml i0 id st, GoStmt o)) end
                | Some (g', GoNoModel) => PdSay g' cs0 (RErr 100) (Some (GDml i0 id st, GoNoModel))
                | _ => PdOff end end = PdDead g1 d1 -> d1 = None \/ exists o r, d1 = Some (o, r) /\ forall k z, o <> GRestart k z).
            { intros r0. destruct (dml_of r0) as [[id st]|]; [|intros [X|X]; discriminate X].
              destruct (gstep (x_g x) (GDml i0 id st)) as [[g' [y|y|y| |y| | |]]|]; try (intros [X|X]; discriminate X).
              - destruct y; try destruct (dml_resp _ _ _ _ _); intros [X|X]; try discriminate X; injection X; intros; subst; right; eexists; eexists; (split; [reflexivity|discriminate]).
              - intros [X|X]; try discriminate X; injection X; intros; subst; right; eexists; eexists; (split; [reflexivity|discriminate]). }
            destruct rq as [s|u|n|n|n|n|n|n]; try (apply D).
            - destruct (gstep (x_g x) (GDdl i0 en s)) as [[g' [y|y|y| |y| | |]]|]; try (intros [X|X]; discriminate X).
              destruct (ddl_resp y); intros [X|X]; try discriminate X; injection X; intros; subst; right; eexists; eexists; (split; [reflexivity|discriminate]).
            - destruct (do_use unit (mk_conn se cs0) _ u) as [c2 a]. intros [X|X]; try discriminate X; injection X; intros; subst; auto.
            - intros [X|X]; try discriminate X; injection X; intros; subst; auto. }
          destruct (perform (x_g x) i0 cs0 en gn q p) as [| |g' d'|g' cs' r d'] eqn:PE; try discriminate ST; injection ST as <- <- <-; [apply (PR g' cs0 (RErr 0) d' (or_intror eq_refl))|apply (PR g' cs' r d' (or_introl eq_refl))]. }
      destruct (Nat.eq_dec j' j) as [->|NE].
      * pose proof ST as ST0. cbn [WireModel.wstep] in ST. destruct (nth_error (x_co x) j) as [[c0|i0 cs0 c0|]|] eqn:GJ; try discriminate ST.
        -- pose proof (nth_lt _ _ _ GJ) as LT. unfold read_hello in ST.
           destruct (hs_read c0 ch) as [c'|u p un|er| | |]; try discriminate ST; try (injection ST as <- <- <-; cbn [x_co] in E; rewrite put_nth_same in E by exact LT; discriminate E).
           destruct (u8 u); [|injection ST as <- <- <-; cbn [x_co] in E; rewrite put_nth_same in E by exact LT; discriminate E].
           destruct (gstep (x_g x) (GLogin u p)) as [[g' r]|] eqn:GS; [|discriminate ST].
           destruct r as [[[]| |]|y|y| |y| | |]; injection ST as <- <- <-; cbn [x_co x_g] in *; rewrite put_nth_same in E by exact LT; try discriminate E. injection E as <- <- <-.
           cbn [WholeModel.gstep GnsModel.step] in GS. destruct (login verify _ u p) as [se|]; [|discriminate GS]. injection GS as <-. exists se.
           cbn. rewrite nth_error_app2, Nat.sub_diag by lia. reflexivity.
        -- assert (EI : i = i0).
           { pose proof (nth_lt _ _ _ GJ) as LT. unfold read_query in ST. destruct (q_read c0 ch) as [c'|[q p|] c'| |]; try (injection ST as <- <- <-; cbn [x_co] in E; rewrite put_nth_same in E by exact LT; congruence).
             destruct (perform (x_g x) i0 cs0 en gn q p) as [| |g' d'|g' cs' r d']; try discriminate ST; injection ST as <- <- <-; cbn [x_co] in E; rewrite put_nth_same in E by exact LT; congruence. }
           subst i0. destruct (IH _ _ _ _ GJ) as [se Y]. eauto.
      * destruct (wstep_other _ _ _ _ _ j ST) as [X|[(_ & X & _)|[_ []]]]; [congruence| |congruence]. rewrite X in E. destruct (IH _ _ _ _ E) as [se Y]. eauto.
    + cbn [WireModel.wstep] in ST. destruct (is_back o); [|discriminate ST]. destruct (gstep (x_g x) o) as [[g' r]|] eqn:GS; [|discriminate ST]. injection ST as <- <- <-. cbn [x_co x_g] in *.
      pose proof (gstep_sess _ _ _ _ GS) as [(k & z & -> & ->)|[l SE]].
      * rewrite nth_error_map in E. destruct (nth_error (x_co x) j); discriminate E.
      * assert (E2 : nth_error (x_co x) j = Some (WcOn i cs c)).
        { destruct o; try exact E. destruct r; try exact E. rewrite nth_error_map in E. destruct (nth_error (x_co x) j); discriminate E. }
        destruct (IH _ _ _ _ E2) as [se Y]. exists se. rewrite SE, nth_error_app1; [exact Y|eapply nth_lt; exact Y].
Qed.
End Conn.
