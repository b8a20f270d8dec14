(** The handshakes of the connections, and where the sessions come from. *)
From Coq Require Import Strings.String List NArith Bool Arith Lia.
From Verif Require Import Bytes AMap DataModel CodecModel NumModel NetModel NetProofs NetProps GnsModel GnsProofs RowModel LexModel LexSpec
  ParseModel ParseSpec DdlModel DdlSpec ExecModel InspectModel BatchModel UpgradeModel WholeModel WholeSpec WireModel WireSpec WireProofs.
Import ListNotations.
Local Open Scope nat_scope.

Lemma hs_run_snoc c l ch c1 : hs_run c l = HWait c1 -> hs_run c (l ++ [ch]) = hs_read c1 ch.
Proof.
  revert c. induction l as [|a l IH]; intros c H.
  - cbn in H. injection H as ->. cbn. destruct (hs_read c1 ch); reflexivity.
  - cbn [hs_run app] in *. destruct (hs_read c a); try discriminate H. auto.
Qed.

Section Login.
Variable farith : aop -> N -> N -> N.
Variable order : fieldmap -> fieldmap.
Variable hash : bytes -> N -> bytes.
Variable verify : bytes -> bytes -> bool.
Variable u8 : bytes -> bool.
Variable fl : bytes -> option N.
Variable ftoa : N -> bytes.
Notation gstep := (gstep farith order hash verify).
Notation perform := (perform farith order hash verify u8 fl ftoa).
Notation wstep := (wstep farith order hash verify u8 fl ftoa).
Notation wruns := (wruns farith order hash verify u8 fl ftoa).
Notation whist := (whist farith order hash verify u8 fl ftoa).

Lemma login_account n u p se : login verify n u p = Some se <->
  (exists a, aget bseq u (n_users n) = Some a /\ p <> [] /\ verify p a = true) /\ se = mk_session u (bseq u ROOT).
Proof using.
  unfold login, verify_user. destruct (aget bseq u (n_users n)) as [a|]; [|split; [discriminate|intros [(a & E & _) _]; discriminate E]].
  destruct p as [|b p]; [split; [discriminate|intros [(x & _ & E & _) _]; contradiction]|].
  destruct (verify (b :: p) a) eqn:V.
  - destruct (bseq u ROOT); (split; [intros E; injection E as <-; split; [exists a; split; [reflexivity|]; split; [discriminate|exact V]|reflexivity]|intros [_ ->]; reflexivity]).
  - split; [discriminate|]. intros [(x & E & _ & X) _]. injection E as <-. congruence.
Qed.

(** the events that a query can be *)
Lemma perform_who g i cs en gn q p : match perform g i cs en gn q p with
  | PdOff | PdUb => True
  | PdDead _ d | PdSay _ _ _ d => d = None \/ exists s r, d = Some (GDdl i en s, r) \/ exists id st, d = Some (GDml i id st, r)
  end.
Proof using.
  unfold WireModel.perform. destruct (nth_error _ i) as [se|]; [|exact Logic.I]. destruct (lex u8 fl q p) as [ts|e|]; auto.
  destruct (dispatch _ _ _ _ _ _) as [r|e| | |]; auto.
  assert (D : forall r0, match (match dml_of r0 with
      | None => PdOff
      | Some (id, st) => match gstep g (GDml i id st) with
          | Some (g', GoStmt RoUb) => PdUb
          | Some (g', GoStmt o) => match dml_resp ftoa g id st o with Some r => PdSay g' cs r (Some (GDml i id st, GoStmt o)) | None => PdDead g' (Some (GDml i id st, GoStmt o)) end
          | Some (g', GoNoModel) => PdSay g' cs (RErr 100) (Some (GDml i id st, GoNoModel))
          | _ => PdOff end end) with
     | PdOff | PdUb => True
     | PdDead _ d | PdSay _ _ _ d => d = None \/ exists s r, d = Some (GDdl i en s, r) \/ exists id st, d = Some (GDml i id st, r) end).
  { intros r0. destruct (dml_of r0) as [[id st]|]; [|exact Logic.I]. destruct (gstep g (GDml i id st)) as [[g' [y|y|y| |y| | |]]|] eqn:ST; try exact Logic.I.
    - destruct y; try exact Logic.I; try destruct (dml_resp _ _ _ _ _); right; exists SReportStatus; eexists; right; eexists; eexists; reflexivity.
    - right. exists SReportStatus. eexists. right. eexists. eexists. reflexivity. }
  destruct r as [s|u|n|n|n|n|n|n]; try (apply D); auto.
  - destruct (gstep g (GDdl i en s)) as [[g' [y|y|y| |y| | |]]|] eqn:ST; try exact Logic.I. destruct (ddl_resp y); right; exists s; eexists; left; reflexivity.
  - destruct (do_use unit (mk_conn se cs) _ u) as [c a]. auto.
Qed.

(** a read that leaves its connection logged in *)
Lemma wstep_own x j en gn ch x' b d i cs c : wstep x (WRecv j en gn ch) = Some (x', (b, d)) -> nth_error (x_co x') j = Some (WcOn i cs c) ->
  (exists cs0 c0, nth_error (x_co x) j = Some (WcOn i cs0 c0)) \/
  (exists c0 u p se, nth_error (x_co x) j = Some (WcHello c0) /\ hs_read c0 ch = HFinal u p (qc_buf c) /\ u8 u = true /\
     login verify (w_ns (sv_w (g_sv (x_g x)))) u p = Some se /\ i = length (sv_sess (g_sv (x_g x))) /\ sv_sess (g_sv (x_g x')) = sv_sess (g_sv (x_g x)) ++ [se] /\
     cs = None /\ b = welcome /\ d = Some (GLogin u p, GoSys (OutLogin true))).
Proof using.
  intros ST E. cbn [WireModel.wstep] in ST. destruct (nth_error (x_co x) j) as [[c0|i0 cs0 c0|]|] eqn:GJ; try discriminate ST; pose proof (nth_lt _ _ _ GJ) as LT.
  - right. unfold read_hello in ST.
    destruct (hs_read c0 ch) as [c'|u p un|er| | |] eqn:HR; try discriminate ST; try (injection ST as <- <- <-; cbn [x_co] in E; rewrite put_nth_same in E by exact LT; discriminate E).
    destruct (u8 u) eqn:U8; [|injection ST as <- <- <-; cbn [x_co] in E; rewrite put_nth_same in E by exact LT; discriminate E].
    destruct (gstep (x_g x) (GLogin u p)) as [[g' r]|] eqn:GS; [|discriminate ST].
    destruct r as [[[]| |]|y|y| |y| | |]; injection ST as <- <- <-; cbn [x_co x_g] in *; rewrite put_nth_same in E by exact LT; try discriminate E. injection E as <- <- <-.
    cbn [WholeModel.gstep GnsModel.step] in GS. destruct (login verify _ u p) as [se|] eqn:LG; [|discriminate GS]. injection GS as <-.
    exists c0, u, p, se. repeat (split; [first [reflexivity | exact HR | exact U8 | exact LG]|]). reflexivity.
  - left. exists cs0, c0. unfold read_query in ST. destruct (q_read c0 ch) as [c'|[q p|] c'| |]; try (injection ST as <- <- <-; cbn [x_co] in E; rewrite put_nth_same in E by exact LT; congruence).
    destruct (perform (x_g x) i0 cs0 en gn q p) as [| |g' d'|g' cs' r d']; try discriminate ST; injection ST as <- <- <-; cbn [x_co] in E; rewrite put_nth_same in E by exact LT; congruence.
Qed.
(** which events a read can be *)
Lemma recv_event x j en gn ch x' b d : wstep x (WRecv j en gn ch) = Some (x', (b, d)) ->
  d = None \/ (exists u p r, d = Some (GLogin u p, r)) \/
  (exists i cs c, nth_error (x_co x) j = Some (WcOn i cs c) /\ exists s r, d = Some (GDdl i en s, r) \/ exists id st, d = Some (GDml i id st, r)).
Proof using.
  intros ST. cbn [WireModel.wstep] in ST. destruct (nth_error (x_co x) j) as [[c0|i0 cs0 c0|]|] eqn:GJ; try discriminate ST.
  - unfold read_hello in ST. destruct (hs_read c0 ch) as [c'|u p un|er| | |] eqn:HR; try discriminate ST; try (injection ST as <- <- <-; auto).
    destruct (u8 u); [|injection ST as <- <- <-; auto]. destruct (gstep (x_g x) (GLogin u p)) as [[g' r]|] eqn:GS; [|discriminate ST].
    right. left. exists u, p, r. destruct r as [[[]| |]|y|y| |y| | |]; injection ST as <- <- <-; reflexivity.
  - unfold read_query in ST. destruct (q_read c0 ch) as [c'|[q p|] c'| |]; try (injection ST as <- <- <-; auto).
    pose proof (perform_who (x_g x) i0 cs0 en gn q p) as PW.
    destruct (perform (x_g x) i0 cs0 en gn q p) as [| |g' d'|g' cs' r d']; try discriminate ST; injection ST as <- <- <-; (destruct PW as [PW|PW]; [auto|right; right; exists i0, cs0, c0; auto]).
Qed.
Lemma recv_no_restart x j en gn ch x' b d : wstep x (WRecv j en gn ch) = Some (x', (b, d)) ->
  exists l, sv_sess (g_sv (x_g x')) = sv_sess (g_sv (x_g x)) ++ l.
Proof using.
  intros ST. pose proof (wstep_event farith order hash verify u8 fl ftoa _ _ _ _ _ ST) as EV. apply recv_event in ST.
  destruct ST as [-> |[(u & p & r & ->)|(i & cs & c & _ & s & r & [-> |(id & st & ->)])]].
  - rewrite EV. exists []. rewrite app_nil_r. reflexivity.
  - apply gstep_sess in EV as [(k & z & X & _)|X]; [discriminate X|exact X].
  - apply gstep_sess in EV as [(k & z & X & _)|X]; [discriminate X|exact X].
  - apply gstep_sess in EV as [(k & z & X & _)|X]; [discriminate X|exact X].
Qed.

(** a connection in the handshake has read all its bytes into it *)
Lemma hello_inv C key salt h x j : whist C key salt h x ->
  (nth_error (x_co x) j = None -> received j h = []) /\
  (forall c, nth_error (x_co x) j = Some (WcHello c) -> hs_run hc_init (received j h) = HWait c).
Proof using.
  intros H. induction H as [|h x e x' b d H IH ST CC]; [split; [reflexivity|intros c E; destruct j; discriminate E]|].
  destruct IH as [I1 I2]. rewrite received_snoc.
  assert (OTHER : (forall en gn ch, e <> WRecv j en gn ch) -> received1 j (e, (b, d)) = [] ->
    (nth_error (x_co x') j = None -> received j h ++ received1 j (e, (b, d)) = []) /\
    (forall c, nth_error (x_co x') j = Some (WcHello c) -> hs_run hc_init (received j h ++ received1 j (e, (b, d))) = HWait c)).
  { intros NE RN. rewrite RN, app_nil_r. destruct (wstep_other _ _ _ _ _ _ _ _ _ _ _ _ j ST NE) as [E|[(E1 & E2 & _)|[E R]]].
    - rewrite E. auto.
    - rewrite E2. split; [discriminate|]. intros c X. injection X as <-. rewrite (I1 E1). reflexivity.
    - split; [|intros c X; rewrite E in X; [discriminate X|split; [exact R|congruence]]]. intros X. apply I1.
      destruct e as [| |o]; try destruct R. cbn [WireModel.wstep] in ST. destruct (is_back o); [|discriminate ST]. destruct (gstep (x_g x) o) as [[g' r]|]; [|discriminate ST].
      injection ST as <- <- <-. cbn [x_co] in X. destruct o; auto. destruct r; auto. rewrite nth_error_map in X. destruct (nth_error (x_co x) j); [discriminate X|reflexivity]. }
  destruct e as [|j' en gn ch|o]; [apply OTHER; [discriminate|reflexivity]| |apply OTHER; [discriminate|reflexivity]].
  cbn [received1]. destruct (Nat.eq_dec j' j) as [->|NE].
  2:{ cbn [received1] in OTHER. destruct (Nat.eq_dec j' j); [contradiction|]. apply OTHER; congruence. }
  clear OTHER. cbn [WireModel.wstep] in ST. destruct (nth_error (x_co x) j) as [[c0|i0 cs0 c0|]|] eqn:GJ; try discriminate ST; pose proof (nth_lt _ _ _ GJ) as LT.
  - specialize (I2 _ eq_refl). rewrite (hs_run_snoc _ _ ch _ I2).
    unfold read_hello in ST. destruct (hs_read c0 ch) as [c'|u p un|er| | |] eqn:HR; try discriminate ST; try (injection ST as <- <- <-; cbn [x_co]; rewrite put_nth_same by exact LT; split; [discriminate|intros c X; congruence]).
    destruct (u8 u); [|injection ST as <- <- <-; cbn [x_co]; rewrite put_nth_same by exact LT; split; [discriminate|intros c X; congruence]].
    destruct (gstep (x_g x) (GLogin u p)) as [[g' r]|] eqn:GS; [|discriminate ST].
    destruct r as [[[]| |]|y|y| |y| | |]; injection ST as <- <- <-; cbn [x_co]; rewrite put_nth_same by exact LT; (split; [discriminate|intros c X; congruence]).
  - unfold read_query in ST. destruct (q_read c0 ch) as [c'|[q p|] c'| |]; try (injection ST as <- <- <-; cbn [x_co]; rewrite put_nth_same by exact LT; split; [discriminate|intros c X; congruence]).
    destruct (perform (x_g x) i0 cs0 en gn q p) as [| |g' d'|g' cs' r d']; try discriminate ST; injection ST as <- <- <-; cbn [x_co]; rewrite put_nth_same by exact LT; (split; [discriminate|intros c X; congruence]).
Qed.

(** where a session comes from *)
Lemma on_origin C key salt h x j i cs c : whist C key salt h x -> nth_error (x_co x) j = Some (WcOn i cs c) ->
  exists ha xa en gn ch u p un se hb, h = ha ++ (WRecv j en gn ch, (welcome, Some (GLogin u p, GoSys (OutLogin true)))) :: hb /\
    whist C key salt ha xa /\ (exists c0, hs_run hc_init (received j ha) = HWait c0) /\ hs_run hc_init (received j ha ++ [ch]) = HFinal u p un /\ u8 u = true /\
    login verify (w_ns (sv_w (g_sv (x_g xa)))) u p = Some se /\ nth_error (sv_sess (g_sv (x_g x))) i = Some se /\ Forall (fun e => ~ restarted e) hb.
Proof using.
  intros H. revert i cs c. induction H as [|h x e x' b d H IH ST CC]; intros i cs c E; [destruct j; discriminate E|].
  assert (GO : forall i0 cs0 c0, nth_error (x_co x) j = Some (WcOn i0 cs0 c0) -> i0 = i -> ~ restarted (e, (b, d)) -> (exists l, sv_sess (g_sv (x_g x')) = sv_sess (g_sv (x_g x)) ++ l) ->
    exists ha xa en gn ch u p un se hb, h ++ [(e, (b, d))] = ha ++ (WRecv j en gn ch, (welcome, Some (GLogin u p, GoSys (OutLogin true)))) :: hb /\
    whist C key salt ha xa /\ (exists c0, hs_run hc_init (received j ha) = HWait c0) /\ hs_run hc_init (received j ha ++ [ch]) = HFinal u p un /\ u8 u = true /\
    login verify (w_ns (sv_w (g_sv (x_g xa)))) u p = Some se /\ nth_error (sv_sess (g_sv (x_g x'))) i = Some se /\ Forall (fun e => ~ restarted e) hb).
  { intros i0 cs0 c0 E0 -> NR [l SE]. destruct (IH _ _ _ E0) as (ha & xa & en & gn & ch & u & p & un & se & hb & -> & A1 & A1' & A2 & A3 & A4 & A5 & A6).
    exists ha, xa, en, gn, ch, u, p, un, se, (hb ++ [(e, (b, d))]). rewrite <- app_assoc. split; [reflexivity|]. repeat (split; [assumption|]).
    split; [rewrite SE, nth_error_app1; [exact A5|eapply nth_lt; exact A5]|]. apply Forall_app. auto. }
  destruct e as [|j' en gn ch|o].
  - destruct (wstep_other _ _ _ _ _ _ _ _ _ _ _ _ j ST) as [X|[(_ & X & _)|[_ []]]]; [discriminate| |congruence].
    rewrite X in E. cbn [WireModel.wstep] in ST. injection ST as <- <- <-. eapply GO; [exact E|reflexivity|intros []|]. exists []. rewrite app_nil_r. reflexivity.
  - destruct (Nat.eq_dec j' j) as [->|NE].
    + pose proof (recv_no_restart _ _ _ _ _ _ _ _ ST) as SE.
      destruct (wstep_own _ _ _ _ _ _ _ _ _ _ _ ST E) as [(cs0 & c0 & E0)|(c0 & u & p & se & E0 & HR & U8 & LG & -> & S2 & -> & -> & ->)].
      * eapply GO; [exact E0|reflexivity|intros []|exact SE].
      * exists h, x, en, gn, ch, u, p, (qc_buf c), se, []. split; [reflexivity|]. split; [exact H|].
        destruct (hello_inv _ _ _ _ _ j H) as [_ HI]. split; [eauto|]. split; [rewrite (hs_run_snoc _ _ ch _ (HI _ E0)); exact HR|]. split; [exact U8|]. split; [exact LG|].
        split; [|constructor]. rewrite S2, nth_error_app2, Nat.sub_diag by lia. reflexivity.
    + destruct (wstep_other _ _ _ _ _ _ _ _ _ _ _ _ j ST) as [X|[(_ & X & _)|[_ []]]]; [congruence| |congruence]. rewrite X in E.
      eapply GO; [exact E|reflexivity|intros []|]. eapply recv_no_restart. exact ST.
  - assert (NR : restarted (WBack o, (b, d)) -> False).
    { intros R. destruct (wstep_other _ _ _ _ _ _ _ _ _ _ _ _ j ST) as [X|[(_ & X & _)|[X _]]]; [discriminate| |congruence|].
      - cbn [WireModel.wstep] in ST. destruct (is_back o); [|discriminate ST]. destruct (gstep (x_g x) o) as [[g' r]|]; [|discriminate ST]. injection ST as <- <- <-.
        cbn [x_co] in E. destruct o; try destruct R. destruct r; try destruct R. rewrite nth_error_map in E. destruct (nth_error (x_co x) j); discriminate E.
      - rewrite X in E; [discriminate E|]. split; [exact R|congruence]. }
    pose proof ST as ST0. cbn [WireModel.wstep] in ST. destruct (is_back o); [|discriminate ST]. destruct (gstep (x_g x) o) as [[g' r]|] eqn:GS; [|discriminate ST]. injection ST as <- <- <-. cbn [x_co x_g] in *.
    destruct (gstep_sess _ _ _ _ _ _ _ _ GS) as [(k & z & -> & ->)|SE]; [destruct (NR Logic.I)|].
    eapply GO; [|reflexivity|exact NR|exact SE]. destruct o; try exact E. destruct r; try exact E. destruct (NR Logic.I).
Qed.
End Login.
