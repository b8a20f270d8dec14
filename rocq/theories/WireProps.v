(** C110, C112: the bytes of all connections on the whole server. *)
From Coq Require Import Strings.String List NArith Bool Arith Lia.
From Verif Require Import Bytes AMap DataModel CodecModel NumModel NetModel NetProofs NetProps GnsModel GnsProofs GnsProps GnsHist RowModel RowSpec RowProps LexModel LexSpec
  ParseModel ParseSpec ParseSel DdlModel DdlSpec DdlAll ExecModel InspectModel BatchModel BatchProps UpgradeModel WholeModel WholeSpec WholeProps
  WireModel WireSpec WireProofs WirePerform WireLogin.
Import ListNotations.
Local Open Scope nat_scope.

(** ** Running examples *)

Definition vx_step := wstep noarith idorder gx_hash gx_verify (fun _ => true) (fun _ => None) (fun _ => []).
Fixpoint vx_go (x : wst) (h : list (wev * wout)) (l : list wev) : option (list (wev * wout) * wst) :=
  match l with
  | [] => Some (h, x)
  | e :: l' => match vx_step x e with Some (x', o) => vx_go x' (h ++ [(e, o)]) l' | None => None end
  end.
Definition vx_gn : gens := mk_gens (fun _ => []) (fun _ => []) (fun _ => 0%N).
Definition vx_recv (j : nat) (u : N) (b : bytes) : wev := WRecv j (gx_env u true) vx_gn b.
Definition vx_q (j : nat) (u : N) (q : string) : wev := vx_recv j u (packet (bstr q) []).
Definition vx_par (l : list N) : bytes := flat_map (fun n => Byte.x02 :: dec_u64 n ++ [LF]) l.
Definition vx_d (j : nat) (q : string) (l : list N) : wev := vx_recv j 0 (packet (bstr q) (vx_par l)).
Definition vx_hello (u p : bytes) : bytes := HDR ++ dec_u64 (len u) ++ [LF] ++ dec_u64 (len p) ++ [LF] ++ u ++ p.
Definition vx_x (l : list wev) : wst := match vx_go (wstart gx_hash gx_pw 0) [] l with Some (_, x) => x | None => wstart gx_hash gx_pw 0 end.
Definition vx_h (l : list wev) : list (wev * wout) := match vx_go (wstart gx_hash gx_pw 0) [] l with Some (h, _) => h | None => [] end.
Notation vx_whist := (whist noarith idorder gx_hash gx_verify (fun _ => true) (fun _ => None) (fun _ => [])).
Notation vx_wruns := (wruns noarith idorder gx_hash gx_verify (fun _ => true) (fun _ => None) (fun _ => [])).
Definition vx_okd (d : option (gop * gout)) : bool := match d with Some (_, (GoFlush BoUb | GoFlush BoPanic | GoStmt RoUb)) => false | _ => true end.
Definition vx_any (_ : gst) (_ : gop) (_ : gout) : Prop := True.
Lemma vx_go_runs (C : gst -> gop -> gout -> Prop) (ck : gst -> gop -> gout -> bool) (CK : forall g o r, ck g o r = true -> C g o r) :
  forall l x0 x h h' x', vx_wruns C x0 h x -> vx_go x h l = Some (h', x') ->
  (fix all (x : wst) (l : list wev) : bool := match l with [] => true | e :: l' =>
     match vx_step x e with Some (x1, (_, d)) => vx_okd d && match d with Some (o, r) => ck (x_g x) o r | None => true end && all x1 l' | None => false end end) x l = true ->
  vx_wruns C x0 h' x'.
Proof.
  induction l as [|e l IH]; intros x0 x h h' x' R E A; cbn [vx_go] in E; [injection E as <- <-; exact R|].
  destruct (vx_step x e) as [[x1 [b d]]|] eqn:ST; [|discriminate E]. apply andb_true_iff in A as [A1 A2]. apply andb_true_iff in A1 as [A0 A1].
  eapply IH; [|exact E|exact A2]. econstructor; [exact R|exact ST|]. destruct d as [[o r]|]; [|exact Logic.I]. split; [apply CK; exact A1|].
  destruct r as [y|y|[]| |[]| | |]; try discriminate A0; repeat split; discriminate.
Qed.
Definition vx_all (ck : gst -> gop -> gout -> bool) : wst -> list wev -> bool :=
  fix all (x : wst) (l : list wev) : bool := match l with [] => true | e :: l' =>
     match vx_step x e with Some (x1, (_, d)) => vx_okd d && match d with Some (o, r) => ck (x_g x) o r | None => true end && all x1 l' | None => false end end.
Lemma vx_hist l : vx_go (wstart gx_hash gx_pw 0) [] l <> None -> vx_all (fun _ _ _ => true) (wstart gx_hash gx_pw 0) l = true -> vx_whist vx_any gx_pw 0 (vx_h l) (vx_x l).
Proof.
  intros N A. unfold vx_h, vx_x. destruct (vx_go _ [] l) as [[h x]|] eqn:E; [|contradiction].
  eapply (vx_go_runs vx_any (fun _ _ _ => true)); [intros; exact Logic.I|constructor|exact E|exact A].
Qed.

(** two connections of root; spaces and a model are made; the packet of an INSERT comes in three pieces,
    with bytes of the other connection and a flush in between *)
Definition vx_ins : bytes := packet (bstr "insert into items(?, ?)") (vx_par [1; 10]%N).
Definition vx_ev1 : list wev :=
  [WConnect; vx_recv 0 0 (vx_hello ROOT gx_pw); WConnect; vx_recv 1 0 (firstn 9 (vx_hello ROOT gx_pw)); vx_recv 1 0 (skipn 9 (vx_hello ROOT gx_pw));
   vx_q 0 11 "create space shop"; vx_q 0 12 "create model shop.items(primary id: uint64, n: uint8)"; vx_q 0 0 "use shop"; vx_q 1 0 "use shop"].
Definition vx_ev2 : list wev :=
  [vx_recv 0 0 (firstn 4 vx_ins); vx_d 1 "insert into items(?, ?)" [2; 20]%N; WBack (GTake wx_i); vx_recv 0 0 (firstn 12 (skipn 4 vx_ins))].
Definition vx_ev3 : list wev := [vx_recv 0 0 (skipn 16 vx_ins)].

(** ** C110 *)

Section C110.
Variable farith : aop -> N -> N -> N.
Variable order : fieldmap -> fieldmap.
Variable hash : bytes -> N -> bytes.
Variable verify : bytes -> bytes -> bool.
Variable u8 : bytes -> bool.
Variable fl : bytes -> option N.
Variable ftoa : N -> bytes.
Notation gstep := (gstep farith order hash verify).
Notation wstep := (wstep farith order hash verify u8 fl ftoa).
Notation wruns := (wruns farith order hash verify u8 fl ftoa).
Notation whist := (whist farith order hash verify u8 fl ftoa).
Notation sending := (sending farith order hash verify u8 fl ftoa).
Notation says := (says u8 fl).

(** What the server goes through under the bytes of its connections is a history of the whole server,
    so that C108 and C109 speak of it. *)
Theorem C110_history : forall C key salt h x, whist C key salt h x -> ghist farith order hash verify C key salt (trace h) (x_g x).
Proof using. exact (whist_ghist farith order hash verify u8 fl ftoa). Qed.

(** The bytes of an incomplete packet do nothing and are not answered, whatever the others do. *)
Theorem C110_incomplete : forall C x1 h2 x2 j i cs, idle x1 j i cs -> wruns C x1 h2 x2 -> Forall (fun e => ~ restarted e) h2 -> unfinished (received j h2) ->
  (exists c, nth_error (x_co x2) j = Some (WcOn i cs c)) /\ forall en gn ch b d, In (WRecv j en gn ch, (b, d)) h2 -> b = [] /\ d = None.
Proof using.
  intros C x1 h2 x2 j i cs ID R NR UF. destruct (quiet farith order hash verify u8 fl ftoa C x1 h2 x2 j i cs ID R NR UF) as (c & E1 & _ & E2). eauto.
Qed.

(** A text says one thing at most. *)
Theorem C110_one_meaning : forall gn cs q p a b, says gn cs q p a -> says gn cs q p b -> a = b.
Proof using. exact (says_one u8 fl). Qed.

(** Full claim: every complete packet is carried out and answered once. For a data statement, proved: the
    read that completes the packet performs that statement in the connection's current space, once, on
    the model it names; the bytes written are exactly the response of the outcome, the connection is idle
    again and no other connection is touched. If the statement makes the task panic nothing is written
    and the connection is closed. Missing: statements with undefined behaviour. *)
Theorem C110_data_partial : forall C key salt h x j i cs l ch q p en gn id st,
  sending C key salt h x j i cs l -> completed_by l ch q p -> says gn cs q p (SayData id st) ->
  exists g' r, gstep (x_g x) (GDml i id st) = Some (g', r) /\
    (r <> GoStmt RoUb -> exists x' b, wstep x (WRecv j en gn ch) = Some (x', (b, Some (GDml i id st, r))) /\ x_g x' = g' /\ others j x x' /\
       match reply (width (x_g x) id st) r with
       | Some res => b = sent ftoa res /\ idle x' j i cs
       | None => r = GoStmt RoPanic /\ b = [] /\ closed x' j
       end).
Proof using.
  intros C key salt h x j i cs l ch q p en gn id st SD CB SY. inversion SY as [ts id0 st0 RA DS| | |]; subst.
  destruct (sending_at farith order hash verify u8 fl ftoa C key salt h x j i cs l ch q p en gn SD CB) as (LT & _ & [se SE] & ST).
  destruct (perform_data farith order hash verify u8 fl ftoa (x_g x) i se cs en gn q p ts id st SE RA DS) as (g' & r & GS & PF).
  exists g', r. split; [exact GS|]. intros NU. rewrite ST.
  destruct PF as [[-> _]|[[-> PF]|(res & rp & RP & PF & RS)]]; [contradiction| |]; rewrite PF.
  - destruct (put_closed g' x j LT) as [P1 P2]. do 2 eexists. split; [reflexivity|]. split; [reflexivity|]. split; [exact P2|]. cbn [reply]. auto.
  - destruct (put_idle g' x j i cs LT) as [P1 P2]. do 2 eexists. split; [reflexivity|]. split; [reflexivity|]. split; [exact P2|]. rewrite RP. auto.
Qed.

(** The response is one that a client reads as the outcome, with nothing left over, whenever its sizes can
    be written in 64 bits; the rows of SELECT ALL have the announced number of columns. *)
Theorem C110_answer_read : forall C key salt h x j i cs l ch q p en gn id st x' b d,
  (forall w, ~ In LF (ftoa w)) ->
  sending C key salt h x j i cs l -> completed_by l ch q p -> says gn cs q p (SayData id st) ->
  wstep x (WRecv j en gn ch) = Some (x', (b, d)) -> b <> [] ->
  exists r res, d = Some (GDml i id st, r) /\ reply (width (x_g x) id st) r = Some res /\
    (match res with
     | ResRow cells => (N.of_nat (List.length cells) < two64)%N /\ all_fit cells
     | ResRows n rows => (n < two64)%N /\ (N.of_nat (List.length rows) < two64)%N /\ Forall all_fit rows
     | _ => True
     end -> client_response b = Some (NetProps.seen ftoa res, [])).
Proof using.
  intros C key salt h x j i cs l ch q p en gn id st x' b d LFF SD CB SY ST NB.
  destruct (C110_data_partial C key salt h x j i cs l ch q p en gn id st SD CB SY) as (g' & r & GS & X).
  assert (DEC : r = GoStmt RoUb \/ r <> GoStmt RoUb) by (destruct r as [y|y|[]| |y| | |]; auto; right; discriminate).
  destruct DEC as [-> |NU].
  { exfalso. inversion SY as [ts id0 st0 RA DS| | |]; subst.
    destruct (sending_at farith order hash verify u8 fl ftoa C key salt h x j i cs l ch q p en gn SD CB) as (LT & _ & [se SE] & ST').
    destruct (perform_data farith order hash verify u8 fl ftoa (x_g x) i se cs en gn q p ts id st SE RA DS) as (g2 & r2 & GS2 & PF).
    rewrite GS in GS2. injection GS2 as <- <-. destruct PF as [[_ PF]|[[E _]|(res & rp & E & _)]]; [|discriminate E|discriminate E].
    rewrite PF in ST'. congruence. }
  destruct (X NU) as (x2 & b2 & ST2 & _ & _ & RP). rewrite ST in ST2. injection ST2 as <- <- ->. exists r.
  destruct (reply (width (x_g x) id st) r) as [res|] eqn:RE; [|destruct RP as (_ & -> & _); contradiction]. exists res. split; [reflexivity|]. split; [reflexivity|].
  destruct RP as [-> _]. intros SZ. pose proof (C32_responses_decode ftoa res [] LFF) as D. rewrite app_nil_r in D. apply D.
  destruct res as [ | |y|c|s|cells|n rows]; try exact Logic.I; try exact SZ.
  - cbn [sendable]. destruct r as [y|y|[]| |y| | |]; try discriminate RE; injection RE as <-; try reflexivity. destruct e as [ | | | | | |[]]; reflexivity.
  - destruct r as [y|y|[]| |y| | |]; discriminate RE.
  - cbn [sendable]. destruct r as [y|y|[]| |y| | |]; try discriminate RE. injection RE as <- <-.
    destruct (stmt_rows farith order hash verify _ _ _ _ _ _ GS) as (nd & cols & n & _ & _ & _ & W). tauto.
Qed.

(** The statements about spaces, models and accounts. Proved: on a session with root rights, and for SYSCTL
    on every session, the statement is performed once and answered, unless it needs all models while a
    flush holds them (then it waits). On the other sessions the others are refused with the error for
    missing permission, and nothing happens. Missing: that the wait ends. *)
Theorem C110_schema_partial : forall C key salt h x j i cs l ch q p en gn s,
  sending C key salt h x j i cs l -> completed_by l ch q p -> says gn cs q p (SaySchema s) ->
  exists se ts, nth_error (sv_sess (g_sv (x_g x))) i = Some se /\ reads_as u8 fl q p ts /\
  (se_root se = true \/ sysctl_text ts -> (wants_models s = true /\ flushing (x_g x) = true) \/
    exists g' o x' b, gstep (x_g x) (GDdl i en s) = Some (g', GoDdl o) /\
      wstep x (WRecv j en gn ch) = Some (x', (b, Some (GDdl i en s, GoDdl o))) /\ x_g x' = g' /\ others j x x' /\
      match schema_reply o with
      | Some res => b = sent ftoa res /\ idle x' j i cs
      | None => b = [] /\ closed x' j
      end) /\
  (se_root se = false -> ~ sysctl_text ts ->
    exists x', wstep x (WRecv j en gn ch) = Some (x', (sent ftoa (ResError 5), None)) /\ x_g x' = x_g x /\ idle x' j i cs /\ others j x x').
Proof using.
  intros C key salt h x j i cs l ch q p en gn s SD CB SY. inversion SY as [|ts s0 RA SS| |]; subst.
  destruct (sending_at farith order hash verify u8 fl ftoa C key salt h x j i cs l ch q p en gn SD CB) as (LT & _ & [se SE] & ST).
  destruct (perform_schema farith order hash verify u8 fl ftoa (x_g x) i se cs en gn q p ts s SE RA SS) as [P1 P2].
  exists se, ts. split; [exact SE|]. split; [exact RA|]. rewrite ST. split.
  - intros R. destruct (P1 R) as [(W1 & W2 & _)|(g' & o & GS & PF)]; [left; auto|right]. exists g', o.
    destruct PF as [[E PF]|(res & rp & E & PF & RS)]; rewrite PF, E.
    + destruct (put_closed g' x j LT) as [Q1 Q2]. do 2 eexists. split; [exact GS|]. split; [reflexivity|]. split; [reflexivity|]. split; [exact Q2|]. auto.
    + destruct (put_idle g' x j i cs LT) as [Q1 Q2]. do 2 eexists. split; [exact GS|]. split; [reflexivity|]. split; [reflexivity|]. split; [exact Q2|]. auto.
  - intros R1 R2. rewrite (P2 R1 R2). destruct (put_idle (x_g x) x j i cs LT) as [Q1 Q2]. eexists. split; [reflexivity|]. split; [reflexivity|]. auto.
Qed.

(** USE changes the current space of its connection as asked, and nothing else; INSPECT answers and
    changes nothing. *)
Theorem C110_use : forall C key salt h x j i cs l ch q p en gn u,
  sending C key salt h x j i cs l -> completed_by l ch q p -> says gn cs q p (SayUse u) ->
  exists cs' res x', uses (space_there (x_g x)) cs u cs' res /\ wstep x (WRecv j en gn ch) = Some (x', (sent ftoa res, None)) /\
    x_g x' = x_g x /\ idle x' j i cs' /\ others j x x'.
Proof using.
  intros C key salt h x j i cs l ch q p en gn u SD CB SY. inversion SY as [| |r u0 RA W|]; subst.
  destruct (sending_at farith order hash verify u8 fl ftoa C key salt h x j i cs l ch q p en gn SD CB) as (LT & _ & [se SE] & ST).
  destruct (perform_use farith order hash verify u8 fl ftoa (x_g x) i se cs en gn q p r u SE RA W) as (cs' & res & rp & US & PF & RS).
  exists cs', res. rewrite ST, PF. destruct (put_idle (x_g x) x j i cs' LT) as [Q1 Q2]. eexists. split; [exact US|]. rewrite RS. split; [reflexivity|]. auto.
Qed.
Theorem C110_inspect : forall C key salt h x j i cs l ch q p en gn n,
  sending C key salt h x j i cs l -> completed_by l ch q p -> says gn cs q p (SayInspect (insp_req_of n)) ->
  exists se x', nth_error (sv_sess (g_sv (x_g x))) i = Some se /\
    wstep x (WRecv j en gn ch) = Some (x', (sent ftoa (match inspect_text (se_root se) (w_ns (sv_w (g_sv (x_g x)))) (fun id => rows_at id (x_g x)) n with
                                                       | Some t => ResString t | None => ResError 100 end), None)) /\
    x_g x' = x_g x /\ idle x' j i cs /\ others j x x'.
Proof using.
  intros C key salt h x j i cs l ch q p en gn n SD CB SY. inversion SY as [| | |r n0 RA W]; subst.
  destruct (sending_at farith order hash verify u8 fl ftoa C key salt h x j i cs l ch q p en gn SD CB) as (LT & _ & [se SE] & ST).
  destruct (perform_inspect farith order hash verify u8 fl ftoa (x_g x) i se cs en gn q p r n SE RA W) as (rp & PF & RS).
  exists se. rewrite ST, PF, RS. destruct (put_idle (x_g x) x j i cs LT) as [Q1 Q2]. eexists. split; [exact SE|]. split; [reflexivity|]. auto.
Qed.

(** A packet whose text says nothing changes nothing: it is answered with an error, or the connection is
    closed without an answer, unless it is a SELECT ALL that leaves the defined behaviour. *)
Theorem C110_nothing_said_partial : forall C key salt h x j i cs l ch q p en gn,
  sending C key salt h x j i cs l -> completed_by l ch q p -> (forall y, ~ says gn cs q p y) ->
  (exists ts, reads_as u8 fl q p ts /\ sel_all_text ts) \/
  exists x' b, wstep x (WRecv j en gn ch) = Some (x', (b, None)) /\ x_g x' = x_g x /\ others j x x' /\
    ((exists code, (code < 256)%N /\ b = sent ftoa (ResError code) /\ idle x' j i cs) \/ (b = [] /\ closed x' j)).
Proof using.
  intros C key salt h x j i cs l ch q p en gn SD CB NS.
  destruct (sending_at farith order hash verify u8 fl ftoa C key salt h x j i cs l ch q p en gn SD CB) as (LT & _ & [se SE] & ST).
  destruct (perform_nothing farith order hash verify u8 fl ftoa (x_g x) i se cs en gn q p SE NS) as [(code & CL & PF)|[PF|[_ X]]]; [| |left; exact X]; right; rewrite ST, PF.
  - destruct (put_idle (x_g x) x j i cs LT) as [Q1 Q2]. do 2 eexists. split; [reflexivity|]. split; [reflexivity|]. split; [exact Q2|]. left. exists code. auto.
  - destruct (put_closed (x_g x) x j LT) as [Q1 Q2]. do 2 eexists. split; [reflexivity|]. split; [reflexivity|]. split; [exact Q2|]. auto.
Qed.
End C110.
Print Assumptions C110_history.
Print Assumptions C110_incomplete.
Print Assumptions C110_one_meaning.
Print Assumptions C110_data_partial.
Print Assumptions C110_answer_read.
Print Assumptions C110_schema_partial.
Print Assumptions C110_use.
Print Assumptions C110_inspect.
Print Assumptions C110_nothing_said_partial.

(** Different errors have different numbers. *)
Theorem C110_codes :
  (forall a b, ddl_code a = ddl_code b -> a = b) /\ (forall a b, parse_code a = parse_code b -> a = b) /\ (forall a b, lex_code a = lex_code b -> a = b) /\
  (forall a b, (forall e, a <> EAlter e) -> (forall e, b <> EAlter e) -> dml_code a = dml_code b -> a = b) /\
  (forall a b c, lex_code a <> parse_code b /\ lex_code a <> ddl_code c /\ parse_code b <> ddl_code c).
Proof.
  split; [intros [] []; cbn; intros E; try reflexivity; discriminate E|].
  split; [intros [] []; cbn; intros E; try reflexivity; discriminate E|].
  split; [intros [] []; cbn; intros E; try reflexivity; discriminate E|].
  split; [|intros [] [] []; cbn; repeat split; discriminate].
  intros [ | | | | | |x] [ | | | | | |y]; cbn; intros A B E; try reflexivity; try discriminate E; try (destruct (A _ eq_refl)); destruct (B _ eq_refl).
Qed.
Print Assumptions C110_codes.

(** ** C112 *)

Section C112.
Variable farith : aop -> N -> N -> N.
Variable order : fieldmap -> fieldmap.
Variable hash : bytes -> N -> bytes.
Variable verify : bytes -> bytes -> bool.
Variable u8 : bytes -> bool.
Variable fl : bytes -> option N.
Variable ftoa : N -> bytes.
Notation gstep := (gstep farith order hash verify).
Notation wstep := (wstep farith order hash verify u8 fl ftoa).
Notation whist := (whist farith order hash verify u8 fl ftoa).

(** When the bytes of a connection are a hello, it is let in exactly if the name is text and name and
    password are those of an account; otherwise it is refused, closed, and nothing changes. *)
Theorem C112_login : forall C key salt h x j en gn ch input u p,
  whist C key salt h x -> greeting x j -> NetProps.reads (received j h ++ [ch]) input -> hello_of input u p [] ->
  (u8 u = true /\ account verify (x_g x) u p -> exists x', wstep x (WRecv j en gn ch) = Some (x', (welcome, Some (GLogin u p, GoSys (OutLogin true)))) /\
     sv_sess (g_sv (x_g x')) = sv_sess (g_sv (x_g x)) ++ [mk_session u (bseq u ROOT)] /\ sv_w (g_sv (x_g x')) = sv_w (g_sv (x_g x)) /\ g_nodes (x_g x') = g_nodes (x_g x) /\
     idle x' j (List.length (sv_sess (g_sv (x_g x)))) None /\ others j x x') /\
  (~ (u8 u = true /\ account verify (x_g x) u p) -> exists x' d, wstep x (WRecv j en gn ch) = Some (x', (refusal, d)) /\ x_g x' = x_g x /\ closed x' j /\ others j x x').
Proof using.
  intros C key salt h x j en gn ch input u p H [c GJ] RD HE.
  destruct (hello_inv farith order hash verify u8 fl ftoa C key salt h x j H) as [_ HI]. pose proof (HI c GJ) as HW.
  destruct (C28_login_parsed_iff_hello_partial (received j h ++ [ch]) input u p RD) as [_ L]. destruct (L (ex_intro _ [] HE)) as [rest HR].
  destruct (C28_never_reads_beyond_the_hello _ _ _ _ _ RD HR) as [k HE2].
  assert (RN : rest = []).
  { destruct RD as (_ & _ & LT). apply (proj2 (hs_initial_done _ _ _ _ LT)) in HE, HE2. rewrite HE in HE2. injection HE2 as E. symmetry in E. apply app_eq_nil in E. tauto. }
  subst rest. rewrite (hs_run_snoc _ _ _ _ HW) in HR. pose proof (nth_lt _ _ _ GJ) as LT.
  cbn [WireModel.wstep]. rewrite GJ. unfold read_hello. rewrite HR. cbn [WholeModel.gstep GnsModel.step].
  split.
  - intros [U A]. rewrite U. rewrite (proj2 (login_account verify _ _ _ _) (conj A eq_refl)).
    destruct (put_idle (mk_gst (mk_server (sv_w (g_sv (x_g x))) (sv_sess (g_sv (x_g x)) ++ [mk_session u (bseq u ROOT)])) (g_nodes (x_g x)) (g_files (x_g x)) (g_tasks (x_g x)) (g_dels (x_g x))) x j (List.length (sv_sess (g_sv (x_g x)))) None LT) as [Q1 Q2].
    eexists. split; [reflexivity|]. split; [reflexivity|]. split; [reflexivity|]. split; [reflexivity|]. split; [exact Q1|exact Q2].
  - intros NA. destruct (put_closed (x_g x) x j LT) as [Q1 Q2]. destruct (u8 u) eqn:U.
    + destruct (login verify (w_ns (sv_w (g_sv (x_g x)))) u p) as [se|] eqn:LG.
      * apply login_account in LG as [A _]. destruct NA. auto.
      * exists (mk_wst (x_g x) (put_nth j WcOff (x_co x))). eexists. split; [|auto]. destruct (x_g x) as [sv ? ? ? ?]. destruct sv. reflexivity.
    + do 2 eexists. split; [reflexivity|]. auto.
Qed.

(** Everything that the bytes of a connection make the server do. *)
Theorem C112_nothing_else : forall x j en gn ch x' b d, wstep x (WRecv j en gn ch) = Some (x', (b, d)) ->
  (d = None /\ x_g x' = x_g x) \/
  (exists u p r, d = Some (GLogin u p, r) /\ sv_w (g_sv (x_g x')) = sv_w (g_sv (x_g x)) /\ g_nodes (x_g x') = g_nodes (x_g x) /\ g_files (x_g x') = g_files (x_g x) /\
     g_tasks (x_g x') = g_tasks (x_g x) /\ g_dels (x_g x') = g_dels (x_g x)) \/
  (exists i cs c, nth_error (x_co x) j = Some (WcOn i cs c) /\ exists s r, d = Some (GDdl i en s, r) \/ exists id st, d = Some (GDml i id st, r)).
Proof using.
  intros x j en gn ch x' b d ST. pose proof (wstep_event farith order hash verify u8 fl ftoa _ _ _ _ _ ST) as EV.
  destruct (recv_event farith order hash verify u8 fl ftoa _ _ _ _ _ _ _ _ ST) as [-> |[(u & p & r & ->)|X]]; [left; auto| |right; right; exact X].
  right. left. exists u, p, r. split; [reflexivity|]. cbn [WholeModel.gstep GnsModel.step] in EV. destruct (login verify _ u p); injection EV as <- _; cbn; auto.
Qed.

(** Every statement that was performed came on a connection that had sent, since the last restart, the
    hello of an account, and was let in; and it ran with the rights of that account. *)
Theorem C112_origin : forall C key salt h1 h2 x e b o r i, whist C key salt (h1 ++ (e, (b, Some (o, r))) :: h2) x ->
  (forall j, (len (concat (received j h1)) < two64)%N) ->
  (exists id st, o = GDml i id st) \/ (exists en s, o = GDdl i en s) ->
  exists j en gn ch x1 x2 ha hb xa en0 gn0 ch0 input u p unread, e = WRecv j en gn ch /\ whist C key salt h1 x1 /\ gstep (x_g x1) o = Some (x_g x2, r) /\
    h1 = ha ++ (WRecv j en0 gn0 ch0, (welcome, Some (GLogin u p, GoSys (OutLogin true)))) :: hb /\ Forall (fun e => ~ restarted e) hb /\
    whist C key salt ha xa /\ concat (received j ha ++ [ch0]) = input /\ hello_of input u p unread /\ u8 u = true /\ account verify (x_g xa) u p /\
    nth_error (sv_sess (g_sv (x_g x1))) i = Some (mk_session u (bseq u ROOT)) /\
    (x_g x2 <> x_g x1 -> (exists en s, o = GDdl i en s) -> u = ROOT).
Proof using.
  intros C key salt h1 h2 x e b o r i H LEN KIND.
  apply wruns_split in H as (x1 & H1 & H2).
  assert (ST : exists x2, wstep x1 e = Some (x2, (b, Some (o, r)))).
  { clear - H2. remember ((e, (b, Some (o, r))) :: h2) as l eqn:EL. revert e b o r h2 EL. induction H2 as [|h x e' x' b' d' H IH S' C']; intros e b o r h2 EL; [discriminate EL|].
    destruct h as [|a h].
    - cbn in EL. injection EL as -> -> -> _. inversion H; subst; [eauto|]. match goal with E : _ ++ _ = [] |- _ => destruct h; discriminate E end.
    - cbn in EL. injection EL as -> _. eapply IH. reflexivity. }
  destruct ST as [x2 ST]. pose proof (wstep_event farith order hash verify u8 fl ftoa _ _ _ _ _ ST) as EV. cbn in EV.
  destruct e as [|j en gn ch|o'].
  { cbn in ST. discriminate ST. }
  2:{ exfalso. cbn [WireModel.wstep] in ST. destruct (is_back o') eqn:IB; [|discriminate ST]. destruct (gstep (x_g x1) o') as [[g' r']|]; [|discriminate ST]. injection ST as _ _ <- _.
      destruct KIND as [(id & st & ->)|(en & s & ->)]; discriminate IB. }
  destruct (recv_event farith order hash verify u8 fl ftoa _ _ _ _ _ _ _ _ ST) as [D|[(u & p & r0 & D)|(i0 & cs & c & GJ & X)]]; [discriminate D| |].
  { injection D as -> ->. destruct KIND as [(id & st & K)|(en' & s & K)]; discriminate K. }
  assert (i0 = i) as ->.
  { destruct X as (s & r1 & [D|(id & st & D)]); injection D as -> ->; destruct KIND as [(id' & st' & K)|(en' & s' & K)]; try discriminate K; injection K; congruence. }
  destruct (on_origin farith order hash verify u8 fl ftoa C key salt h1 x1 j i cs c H1 GJ) as (ha & xa & en0 & gn0 & ch0 & u & p & un & se & hb & EH & HA & [cw HW] & HR & U & LG & SE & NR).
  apply login_account in LG as [A ->].
  assert (RD : NetProps.reads (received j ha ++ [ch0]) (concat (received j ha ++ [ch0]))).
  { split; [|split; [reflexivity|]].
    - rewrite (hs_run_snoc _ _ _ _ HW) in HR. apply Forall_app. split; [|constructor; [intros ->; discriminate HR|constructor]].
      clear - HW. revert HW. generalize hc_init. generalize (received j ha). induction l as [|a l IH]; intros c0 E; [constructor|]. cbn in E.
      destruct (hs_read c0 a) as [c'|u' p' un'|e'| | |] eqn:HR0; try discriminate E. constructor; [intros ->; discriminate HR0|eapply IH; exact E].
    - eapply N.le_lt_trans; [|apply (LEN j)]. rewrite EH. unfold received. rewrite flat_map_app, concat_app. cbn [flat_map received1]. destruct (Nat.eq_dec j j) as [_|N]; [|contradiction].
      rewrite !concat_app, !len_app. apply N.add_le_mono_l. cbn [concat]. rewrite len_app. apply N.le_add_r. }
  destruct (proj1 (C28_login_parsed_iff_hello_partial _ _ u p RD) (ex_intro _ un HR)) as [unread HE].
  exists j, en, gn, ch, x1, x2, ha, hb, xa, en0, gn0, ch0, (concat (received j ha ++ [ch0])), u, p, unread.
  repeat (split; [first [reflexivity|assumption]|]).
  intros NE (en' & s & ->). destruct (bseq u ROOT) eqn:BR; [apply bseq_eq in BR; exact BR|]. exfalso. apply NE.
  cbn [WholeModel.gstep] in EV. destruct (wants_models s && flushing (x_g x1)); [injection EV as <- _; reflexivity|].
  cbn [GnsModel.step] in EV. rewrite SE in EV. destruct (exec_stmt order hash (mk_session u false) (WholeModel.seen (x_g x1) en' s) (sv_w (g_sv (x_g x1))) s) as [w o0] eqn:EX.
  injection EV as EV _. rewrite <- EV.
  assert (DS : s = SReportStatus \/ s <> SReportStatus) by (destruct s; auto; right; discriminate).
  destruct (x_g x1) as [[w1 ss] nd fs ts ds]. cbn [g_sv sv_w sv_sess] in *. destruct DS as [-> |NS].
  - cbn in EX. injection EX as <- _. reflexivity.
  - rewrite exec_nonroot in EX by auto. injection EX as <- <-. destruct s; reflexivity.
Qed.
End C112.
Print Assumptions C112_login.
Print Assumptions C112_nothing_else.
Print Assumptions C112_origin.

(** ** A run *)

Lemma vx_says gn cs root q p id st :
  match lex (fun _ => true) (fun _ => None) (bstr q) p with
  | LexOk ts => match dispatch (gn_text gn) (gn_bin gn) (gn_now gn) root cs ts with DReq r => dml_of r | _ => None end
  | _ => None
  end = Some (id, st) -> says (fun _ => true) (fun _ => None) gn cs (bstr q) p (SayData id st).
Proof.
  intros E. destruct (lex _ _ _ p) as [ts| |] eqn:L; try discriminate E. destruct (dispatch _ _ _ root cs ts) as [r| | | |] eqn:D; try discriminate E.
  apply reads_lex in L. econstructor; [exact L|]. eapply dispatch_data; eassumption.
Qed.
Lemma vx_sending la lb j i cs l :
  vx_go (wstart gx_hash gx_pw 0) [] la <> None -> vx_all (fun _ _ _ => true) (wstart gx_hash gx_pw 0) la = true ->
  nth_error (x_co (vx_x la)) j = Some (WcOn i cs qc_reset) -> vx_go (vx_x la) [] lb <> None -> vx_all (fun _ _ _ => true) (vx_x la) lb = true ->
  forallb (fun e => match e with WBack (GRestart _ _) => false | _ => true end) lb = true ->
  received j (map (fun e => (e, ([], None))) lb) = l ->
  exists h x, (exists h2, vx_go (vx_x la) [] lb = Some (h2, x)) /\ sending noarith idorder gx_hash gx_verify (fun _ => true) (fun _ => None) (fun _ => []) vx_any gx_pw 0 h x j i cs l.
Proof.
  intros A1 A2 ID B1 B2 NR RC. pose proof (vx_hist la A1 A2) as H1. destruct (vx_go (vx_x la) [] lb) as [[h2 x]|] eqn:E; [|contradiction].
  exists (vx_h la ++ h2), x. split; [eauto|]. exists (vx_h la), (vx_x la), h2. split; [reflexivity|]. split; [exact H1|]. split; [exact ID|].
  split; [eapply (vx_go_runs vx_any (fun _ _ _ => true)); [intros; exact Logic.I|constructor|exact E|exact B2]|].
  assert (M : forall l0 x0 h0 h3 x3, vx_go x0 h0 l0 = Some (h3, x3) -> exists h4, h3 = h0 ++ h4 /\ map fst h4 = l0).
  { clear. induction l0 as [|e l0 IH]; intros x0 h0 h3 x3 E; cbn in E; [injection E as <- _; exists []; rewrite app_nil_r; auto|].
    destruct (vx_step x0 e) as [[x1 o]|]; [|discriminate E]. destruct (IH _ _ _ _ E) as (h4 & -> & M). exists ((e, o) :: h4). rewrite <- app_assoc. split; [reflexivity|]. cbn. congruence. }
  destruct (M _ _ _ _ _ E) as (h4 & X & ML). cbn in X. subst h4. split.
  - apply Forall_forall. intros [e o] IN. rewrite forallb_forall in NR. assert (IE : In e lb) by (rewrite <- ML; apply (in_map fst _ _ IN)). specialize (NR e IE).
    cbn [restarted]. destruct e as [| |[]]; auto. discriminate NR.
  - rewrite <- RC, <- ML, map_map. unfold received. clear. induction h2 as [|[e o] h2 IH]; [reflexivity|]. cbn [flat_map map]. rewrite IH. destruct e; reflexivity.
Qed.

(** the third piece completes the INSERT: it is performed, answered with the empty response, and the row is
    there for the other connection, which reads the two cells *)
Example C110_example_data : exists h x, sending noarith idorder gx_hash gx_verify (fun _ => true) (fun _ => None) (fun _ => []) vx_any gx_pw 0 h x 0 0 (Some gx_s) [firstn 4 vx_ins; firstn 12 (skipn 4 vx_ins)] /\
  completed_by [firstn 4 vx_ins; firstn 12 (skipn 4 vx_ins)] (skipn 16 vx_ins) (bstr "insert into items(?, ?)") (vx_par [1; 10]%N) /\
  says (fun _ => true) (fun _ => None) vx_gn (Some gx_s) (bstr "insert into items(?, ?)") (vx_par [1; 10]%N) (SayData wx_i (RInsert (InsTuple [CQw QU64 1; CQw QU64 10]))) /\
  exists x1, vx_step x (vx_recv 0 0 (skipn 16 vx_ins)) = Some (x1, ([Byte.x12], Some (GDml 0 wx_i (RInsert (InsTuple [CQw QU64 1; CQw QU64 10])), GoStmt RoOk))) /\
  exists x2 b, vx_step x1 (vx_d 1 "select * from items where id = ?" [1%N]) = Some (x2, (b, Some (GDml 1 wx_i (RSelect [(bstr "id", (OpEq, LUInt 1))] None), GoStmt (RoRow [CQw QU64 1; CQw QU8 10])))) /\
  client_response b = Some (WRow [VUInt 5 1; VUInt 2 10], []).
Proof.
  destruct (vx_sending vx_ev1 vx_ev2 0 0 (Some gx_s) [firstn 4 vx_ins; firstn 12 (skipn 4 vx_ins)]) as (h & x & [h2 E] & SD);
    [vm_compute; discriminate|vm_compute; reflexivity|vm_compute; reflexivity|vm_compute; discriminate|vm_compute; reflexivity|vm_compute; reflexivity|vm_compute; reflexivity|].
  exists h, x. split; [exact SD|]. split.
  { exists vx_ins. split; [apply packet_is_packet; vm_compute; reflexivity|]. split; [vm_compute; reflexivity|]. split; [repeat constructor; vm_compute; discriminate|]. split; [vm_compute; discriminate|]. vm_compute. reflexivity. }
  split; [apply (vx_says vx_gn (Some gx_s) true); vm_compute; reflexivity|].
  assert (X : x = match vx_go (vx_x vx_ev1) [] vx_ev2 with Some (_, x) => x | None => x end) by (rewrite E; reflexivity). 
  clear - X. vm_compute in X. subst x. eexists. split; [vm_compute; reflexivity|]. do 2 eexists. split; vm_compute; reflexivity.
Qed.

(** the other kinds of packets on the same server: a statement about spaces, the current space, an
    unknown word, and, on a connection of another account, a statement about spaces *)
Definition vx_ana : list wev :=
  [vx_recv 0 0 (packet (bstr "sysctl create user ana with {password: ?}") (Byte.x06 :: dec_u64 (len gx_pw) ++ LF :: gx_pw)); WConnect; vx_recv 2 0 (vx_hello (bstr "ana") gx_pw)].
Example C110_example_others :
  map (fun x => fst (snd x)) (match vx_go (vx_x (vx_ev1 ++ vx_ana)) [] [vx_q 0 21 "create space t"; vx_q 0 0 "use $current"; vx_q 0 0 "sing a song"; vx_q 2 22 "create space u"; vx_q 2 0 "use shop"; vx_d 2 "insert into items(?, ?)" [1; 10]%N] with Some (h, _) => h | None => [] end) =
  [[Byte.x12]; sent (fun _ => []) (ResString gx_s); sent (fun _ => []) (ResError 32); sent (fun _ => []) (ResError 5); [Byte.x12]; [Byte.x12]] /\
  idle (vx_x (vx_ev1 ++ vx_ana)) 2 2 None.
Proof. split; vm_compute; reflexivity. Qed.

(** Full claim: every complete packet is answered. False of the code: the packet of a SELECT without a
    condition in the current space is not answered; the connection is closed (C46). *)
Theorem C110_answered_refuted : exists h x q ch x' , sending noarith idorder gx_hash gx_verify (fun _ => true) (fun _ => None) (fun _ => []) vx_any gx_pw 0 h x 0 0 (Some gx_s) [] /\
  completed_by [] ch q [] /\ reads_as (fun _ => true) (fun _ => None) q [] [kst KsSelect; TSym SMul; kmis KmFrom; TId gx_m] /\
  vx_step x (vx_recv 0 0 ch) = Some (x', ([], None)) /\ closed x' 0.
Proof.
  destruct (vx_sending vx_ev1 [] 0 0 (Some gx_s) []) as (h & x & [h2 E] & SD);
    [vm_compute; discriminate|vm_compute; reflexivity|vm_compute; reflexivity|vm_compute; discriminate|vm_compute; reflexivity|vm_compute; reflexivity|vm_compute; reflexivity|].
  exists h, x, (bstr "select * from items"), (packet (bstr "select * from items") []).
  assert (X : x = vx_x vx_ev1) by (cbn in E; congruence). clear E. 
  destruct (vx_step x (vx_recv 0 0 (packet (bstr "select * from items") []))) as [[x' o]|] eqn:ST; [|rewrite X in ST; vm_compute in ST; discriminate ST].
  exists x'. split; [exact SD|]. split.
  { eexists. split; [apply packet_is_packet; vm_compute; reflexivity|]. split; [vm_compute; reflexivity|]. split; [constructor|]. split; [vm_compute; discriminate|]. vm_compute. reflexivity. }
  split; [apply reads_lex; vm_compute; reflexivity|]. rewrite X in ST. clear - ST. unfold closed.
  assert (Y : Some (x', o) = vx_step (vx_x vx_ev1) (vx_recv 0 0 (packet (bstr "select * from items") []))) by (rewrite ST; reflexivity). clear ST.
  vm_compute in Y. injection Y as -> ->. split; reflexivity.
Qed.
Print Assumptions C110_answered_refuted.

(** a hello in two pieces, accepted; one with a wrong password, refused *)
Example C112_example_login : exists h x, vx_whist vx_any gx_pw 0 h x /\ greeting x 1 /\
  NetProps.reads (received 1 h ++ [skipn 9 (vx_hello ROOT gx_pw)]) (vx_hello ROOT gx_pw) /\ hello_of (vx_hello ROOT gx_pw) ROOT gx_pw [] /\
  (true = true /\ account gx_verify (x_g x) ROOT gx_pw).
Proof.
  exists (vx_h (firstn 4 vx_ev1)), (vx_x (firstn 4 vx_ev1)).
  split; [apply vx_hist; vm_compute; [discriminate|reflexivity]|]. split; [eexists; vm_compute; reflexivity|].
  split; [split; [repeat constructor; vm_compute; discriminate|]; split; vm_compute; reflexivity|].
  split; [apply hs_initial_done; vm_compute; reflexivity|]. split; [reflexivity|]. eexists. split; [vm_compute; reflexivity|]. split; [discriminate|vm_compute; reflexivity].
Qed.
Example C112_example_refused : exists x', vx_step (vx_x [WConnect]) (vx_recv 0 0 (vx_hello ROOT (bstr "wrong"))) = Some (x', (refusal, Some (GLogin ROOT (bstr "wrong"), GoSys (OutLogin false)))) /\ closed x' 0.
Proof. eexists. split; vm_compute; reflexivity. Qed.
(** a history with statements of two accounts *)
Example C112_example_origin : vx_whist vx_any gx_pw 0 (vx_h (vx_ev1 ++ vx_ana ++ [vx_q 2 0 "use shop"; vx_d 2 "insert into items(?, ?)" [1; 10]%N])) (vx_x (vx_ev1 ++ vx_ana ++ [vx_q 2 0 "use shop"; vx_d 2 "insert into items(?, ?)" [1; 10]%N])) /\
  last (vx_h (vx_ev1 ++ vx_ana ++ [vx_q 2 0 "use shop"; vx_d 2 "insert into items(?, ?)" [1; 10]%N])) (WConnect, ([], None)) =
   (vx_d 2 "insert into items(?, ?)" [1; 10]%N, ([Byte.x12], Some (GDml 2 wx_i (RInsert (InsTuple [CQw QU64 1; CQw QU64 10])), GoStmt RoOk))).
Proof. split; [apply vx_hist; vm_compute; [discriminate|reflexivity]|vm_compute; reflexivity]. Qed.
