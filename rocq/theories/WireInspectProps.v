(** C55 and C61 on the bytes of the whole server. *)
From Coq Require Import Strings.String List NArith Bool Arith Lia Permutation.
From Verif Require Import Bytes AMap DataModel CodecModel NumModel NumProofs NetModel NetProofs NetProps GnsModel GnsProofs GnsProps GnsHist RowModel RowSpec RowProps LexModel LexSpec
  ParseModel ParseSpec ParseSel DdlModel DdlSpec DdlAll ExecModel InspectModel JsonSpec InspectProofs InspectReach InspectProps BatchModel BatchProps UpgradeModel WholeModel WholeSpec WholeProps
  WireModel WireSpec WireProofs WirePerform WireLogin WireProps WireInspect.
Import ListNotations.
Local Open Scope nat_scope.

(** ** C55 *)

Section C55.
Variable farith : aop -> N -> N -> N.
Variable order : fieldmap -> fieldmap.
Hypothesis order_perm : forall l, Permutation l (order l).
Variable hash : bytes -> N -> bytes.
Variable verify : bytes -> bytes -> bool.
Variable u8 : bytes -> bool.
Variable fl : bytes -> option N.
Variable ftoa : N -> bytes.
Notation wstep := (wstep farith order hash verify u8 fl ftoa).
Notation sending := (sending farith order hash verify u8 fl ftoa).
Notation says := (says u8 fl).

Lemma sending_ok C key salt h x j i cs l : sending C key salt h x j i cs l -> ns_ok (w_ns (sv_w (g_sv (x_g x)))).
Proof using order_perm.
  intros (h1 & x1 & h2 & _ & H1 & _ & H2 & _). assert (W1 : world_ok (sv_w (g_sv (x_g x1)))) by (eapply whist_ok; eassumption).
  assert (W : world_ok (sv_w (g_sv (x_g x)))); [|exact (proj1 W)].
  clear H1. induction H2 as [|h0 x2 e x' b d H IH ST _]; [exact W1|]. eapply wstep_ok; [exact order_perm|exact IH|exact ST].
Qed.

(** The packet of INSPECT GLOBAL, whatever packets, background work and restarts came before, is answered
    with the JSON text that lists the spaces, and on a connection of root the accounts. *)
Theorem C55_wire_global : forall C key salt h x j i cs l ch q p en gn,
  sending C key salt h x j i cs l -> completed_by l ch q p -> says gn cs q p (SayInspect (insp_req_of InGlobal)) ->
  exists se x' t, nth_error (sv_sess (g_sv (x_g x))) i = Some se /\
    wstep x (WRecv j en gn ch) = Some (x', (sent ftoa (ResString t), None)) /\ x_g x' = x_g x /\ idle x' j i cs /\ others j x x' /\
    json (global_value (se_root se) (w_ns (sv_w (g_sv (x_g x))))) t.
Proof using order_perm.
  intros C key salt h x j i cs l ch q p en gn SD CB SY. pose proof (sending_ok _ _ _ _ _ _ _ _ _ SD) as NO.
  destruct (C110_inspect farith order hash verify u8 fl ftoa C key salt h x j i cs l ch q p en gn InGlobal SD CB SY) as (se & x' & SE & ST & X).
  destruct (global_json _ (se_root se) (fun id => rows_at id (x_g x)) NO) as (t & E & J). rewrite E in ST. exists se, x', t. tauto.
Qed.

(** The packet of INSPECT MODEL is answered with the description of the model's columns and the number of
    its rows at that moment. *)
Theorem C55_wire_model : forall C key salt h x j i cs l ch q p en gn e m,
  sending C key salt h x j i cs l -> completed_by l ch q p -> says gn cs q p (SayInspect (insp_req_of (InModel e))) ->
  aget ent_eqb e (n_models (w_ns (sv_w (g_sv (x_g x))))) = Some m -> (rows_at e (x_g x) < two64)%N ->
  exists x' t r, wstep x (WRecv j en gn ch) = Some (x', (sent ftoa (ResString t), None)) /\ x_g x' = x_g x /\ idle x' j i cs /\ others j x x' /\
    dec_text (rows_at e (x_g x)) r /\
    json (JObj [(bstr "decl", JStr (describe (md_lay m))); (bstr "rows", JNum r); (bstr "properties", JObj [])]) t.
Proof using order_perm.
  intros C key salt h x j i cs l ch q p en gn e m SD CB SY G R. pose proof (sending_ok _ _ _ _ _ _ _ _ _ SD) as NO.
  destruct (C110_inspect farith order hash verify u8 fl ftoa C key salt h x j i cs l ch q p en gn (InModel e) SD CB SY) as (se & x' & SE & ST & X).
  destruct (model_json _ (se_root se) (fun id => rows_at id (x_g x)) e m NO G R) as (t & r & E & D & J). rewrite E in ST. exists x', t, r. tauto.
Qed.

(** Full claim: so is the packet of INSPECT SPACE. It never is: the text written is that of the models of
    the space with one closing brace too many, and no JSON text. *)
Theorem C55_wire_space_malformed : forall C key salt h x j i cs l ch q p en gn k s,
  sending C key salt h x j i cs l -> completed_by l ch q p -> says gn cs q p (SayInspect (insp_req_of (InSpace k))) ->
  aget bseq k (n_spaces (w_ns (sv_w (g_sv (x_g x))))) = Some s ->
  exists x' t, wstep x (WRecv j en gn ch) = Some (x', (sent ftoa (ResString (t ++ [x7d])), None)) /\ x_g x' = x_g x /\ idle x' j i cs /\ others j x x' /\
    json (JObj [(bstr "models", JArr (map JStr (sp_models s)))]) t /\ (forall v, ~ json v (t ++ [x7d])).
Proof using order_perm.
  intros C key salt h x j i cs l ch q p en gn k s SD CB SY G. pose proof (sending_ok _ _ _ _ _ _ _ _ _ SD) as NO.
  destruct (C110_inspect farith order hash verify u8 fl ftoa C key salt h x j i cs l ch q p en gn (InSpace k) SD CB SY) as (se & x' & SE & ST & X).
  destruct (space_json _ (se_root se) (fun id => rows_at id (x_g x)) k s NO G) as (t & E & J). pose proof (space_malformed _ _ _ _ _ NO E) as MF.
  rewrite E in ST. exists x', t. tauto.
Qed.

(** What is not there is answered with the error of a missing object. *)
Theorem C55_wire_missing : forall C key salt h x j i cs l ch q p en gn n,
  sending C key salt h x j i cs l -> completed_by l ch q p -> says gn cs q p (SayInspect (insp_req_of n)) ->
  match n with InGlobal => False | InSpace k => aget bseq k (n_spaces (w_ns (sv_w (g_sv (x_g x))))) = None
             | InModel e => aget ent_eqb e (n_models (w_ns (sv_w (g_sv (x_g x))))) = None end ->
  exists x', wstep x (WRecv j en gn ch) = Some (x', (sent ftoa (ResError 100), None)) /\ x_g x' = x_g x /\ idle x' j i cs /\ others j x x'.
Proof using.
  intros C key salt h x j i cs l ch q p en gn n SD CB SY M.
  destruct (C110_inspect farith order hash verify u8 fl ftoa C key salt h x j i cs l ch q p en gn n SD CB SY) as (se & x' & SE & ST & X).
  rewrite (proj2 (C55_not_found _ (se_root se) (fun id => rows_at id (x_g x)) n) M) in ST. eauto.
Qed.
End C55.
Print Assumptions C55_wire_global.
Print Assumptions C55_wire_model.
Print Assumptions C55_wire_space_malformed.
Print Assumptions C55_wire_missing.

(** ** C61 *)

Section C61.
Variable farith : aop -> N -> N -> N.
Variable order : fieldmap -> fieldmap.
Variable hash : bytes -> N -> bytes.
Variable verify : bytes -> bytes -> bool.
Variable u8 : bytes -> bool.
Variable fl : bytes -> option N.
Variable ftoa : N -> bytes.
Notation wstep := (wstep farith order hash verify u8 fl ftoa).
Notation perform := (perform farith order hash verify u8 fl ftoa).

(** the same server with other accounts *)
Definition accounts (us : list (bytes * bytes)) (g : gst) : gst :=
  mk_gst (mk_server (mk_world (set_users us (w_ns (sv_w (g_sv g)))) (w_log (sv_w (g_sv g))) (w_iffy (sv_w (g_sv g)))) (sv_sess (g_sv g)))
    (g_nodes g) (g_files g) (g_tasks g) (g_dels g).
Definition waccounts (us : list (bytes * bytes)) (x : wst) : wst := mk_wst (accounts us (x_g x)) (x_co x).

Lemma accounts_dml us g i id st : gstep farith order hash verify (accounts us g) (GDml i id st) =
  option_map (fun '(g', r) => (accounts us g', r)) (gstep farith order hash verify g (GDml i id st)).
Proof using.
  cbn [gstep accounts g_sv sv_sess]. destruct (nth_error _ i); [|reflexivity]. destruct (negb _); [reflexivity|]. cbn [g_nodes].
  destruct (aget ent_eqb id _) as [nd|]; [|reflexivity]. destruct (rstep _ _ _ _). reflexivity.
Qed.
Lemma accounts_perform us g i se cs en gn q p : nth_error (sv_sess (g_sv g)) i = Some se -> se_root se = false ->
  perform (accounts us g) i cs en gn q p =
  match perform g i cs en gn q p with
  | PdOff => PdOff | PdUb => PdUb
  | PdDead g' d => PdDead (accounts us g') d
  | PdSay g' cs' r d => PdSay (accounts us g') cs' r d
  end.
Proof using.
  intros SE R. unfold WireModel.perform. cbn [accounts g_sv sv_sess]. rewrite SE. destruct (lex u8 fl q p) as [ts| |]; try reflexivity. rewrite R.
  destruct (dispatch _ _ _ false cs ts) as [rq| | | |]; try reflexivity.
  assert (DX : forall id st, (match gstep farith order hash verify (accounts us g) (GDml i id st) with
                  | Some (g', GoStmt RoUb) => PdUb
                  | Some (g', GoStmt o) =>
                      let d := Some (GDml i id st, GoStmt o) in
                      match dml_resp ftoa (accounts us g) id st o with Some r => PdSay g' cs r d | None => PdDead g' d end
                  | Some (g', GoNoModel) => PdSay g' cs (RErr 100) (Some (GDml i id st, GoNoModel))
                  | _ => PdOff
                  end) =
    match (match gstep farith order hash verify g (GDml i id st) with
                  | Some (g', GoStmt RoUb) => PdUb
                  | Some (g', GoStmt o) =>
                      let d := Some (GDml i id st, GoStmt o) in
                      match dml_resp ftoa g id st o with Some r => PdSay g' cs r d | None => PdDead g' d end
                  | Some (g', GoNoModel) => PdSay g' cs (RErr 100) (Some (GDml i id st, GoNoModel))
                  | _ => PdOff
                  end) with
    | PdOff => PdOff | PdUb => PdUb
    | PdDead g' d => PdDead (accounts us g') d
    | PdSay g' cs' r d => PdSay (accounts us g') cs' r d
    end).
  { intros id st. rewrite accounts_dml. change (dml_resp ftoa (accounts us g)) with (dml_resp ftoa g).
    destruct (gstep farith order hash verify g (GDml i id st)) as [[g' [o|o|o| |o| | |]]|]; cbn [option_map]; try reflexivity.
    cbv zeta. destruct (dml_resp ftoa g id st o); destruct o; reflexivity. }
  destruct rq as [s|u|n|n|n|n|n|n]; cbn [dml_of]; try apply DX.
  - cbn [gstep]. change (flushing (accounts us g)) with (flushing g). destruct (wants_models s && flushing g); [reflexivity|].
    cbn [GnsModel.step accounts g_sv sv_sess]. rewrite SE.
    assert (SN : forall en', WholeModel.seen (accounts us g) en' s = WholeModel.seen g en' s) by (intros en'; destruct s; reflexivity).
    assert (DS : s = SReportStatus \/ s <> SReportStatus) by (destruct s; auto; right; discriminate). destruct DS as [-> |NS].
    + cbn [exec_stmt w_iffy sv_w WholeModel.seen]. destruct (w_iffy (sv_w (g_sv g))) eqn:IFF; cbn [ddl_resp effect]; unfold accounts; cbn; rewrite IFF; reflexivity.
    + fold (accounts us g). destruct se as [un rt]. cbn [se_root] in R. subst rt. rewrite !exec_nonroot by auto. destruct s; reflexivity.
  - cbn [sv_w w_ns]. destruct u as [k| |]; cbn [do_use c_cs]; unfold has_space; cbn [set_users n_spaces].
    + destruct (aget bseq k (n_spaces (w_ns (sv_w (g_sv g))))); reflexivity.
    + destruct cs as [k|]; [|reflexivity]. cbn [c_cs]. destruct (aget bseq k (n_spaces (w_ns (sv_w (g_sv g))))); reflexivity.
    + reflexivity.
  - destruct n; reflexivity.
Qed.

(** An open connection without the rights of root does not look at the accounts again: whatever bytes it
    sends, the server writes the same bytes and does the same, whichever accounts there are; in particular
    when its own account is no longer there, or has another password. *)
Theorem C61_wire_accounts_not_consulted : forall us x j en gn ch i cs c se,
  nth_error (x_co x) j = Some (WcOn i cs c) -> nth_error (sv_sess (g_sv (x_g x))) i = Some se -> se_root se = false ->
  wstep (waccounts us x) (WRecv j en gn ch) = option_map (fun '(x', o) => (waccounts us x', o)) (wstep x (WRecv j en gn ch)).
Proof using.
  intros us x j en gn ch i cs c se CJ SE R. cbn [WireModel.wstep]. change (x_co (waccounts us x)) with (x_co x). rewrite CJ. unfold read_query.
  change (x_co (waccounts us x)) with (x_co x). change (x_g (waccounts us x)) with (accounts us (x_g x)).
  destruct (q_read c ch) as [c1|[q p|] c1| |]; try reflexivity. rewrite (accounts_perform us (x_g x) i se cs en gn q p SE R).
  destruct (perform (x_g x) i cs en gn q p); reflexivity.
Qed.
End C61.
Print Assumptions C61_wire_accounts_not_consulted.

(** ** A run *)

(** ana has an account and an open connection; root drops the account *)
Definition vx_fire : list wev :=
  [vx_q 2 0 "use shop"; vx_d 2 "insert into items(?, ?)" [7; 70]%N; vx_q 0 0 "sysctl drop user ana"].
Definition vx_fired : list wev := vx_ev1 ++ vx_ana ++ vx_fire.

(** C61 is false over the wire: after the packet of DROP USER ana was answered with success there is no
    account of that name, a new handshake with its name and password is refused, and on the connection
    that was open a DELETE is carried out and answered with success, and the row is gone. *)
Theorem C61_wire_drop_ends_access_refuted : exists h x, vx_whist vx_any gx_pw 0 h x /\
  (exists e d, In (vx_q 0 0 "sysctl drop user ana", ([Byte.x12], d)) h /\ d = Some e) /\
  aget bseq (bstr "ana") (n_users (w_ns (sv_w (g_sv (x_g x))))) = None /\ idle x 2 2 (Some gx_s) /\
  nth_error (sv_sess (g_sv (x_g x))) 2 = Some (mk_session (bstr "ana") false) /\
  option_map (map (fun y => fst (snd y))) (option_map fst (vx_go x [] [WConnect; vx_recv 3 0 (vx_hello (bstr "ana") gx_pw); vx_d 2 "delete from items where id = ?" [7%N]; vx_d 0 "select * from items where id = ?" [7%N]])) =
    Some [[]; refusal; [Byte.x12]; sent (fun _ => []) (ResError 111)].
Proof.
  exists (vx_h vx_fired), (vx_x vx_fired).
  split; [apply vx_hist; [vm_compute; discriminate|vm_compute; reflexivity]|].
  split; [eexists; eexists; split; [|reflexivity]; vm_compute; do 14 right; left; reflexivity|].
  split; [vm_compute; reflexivity|]. split; [vm_compute; reflexivity|]. split; vm_compute; reflexivity.
Qed.
Print Assumptions C61_wire_drop_ends_access_refuted.

(** a connection as in [C61_wire_accounts_not_consulted], and its packets with and without the account *)
Example C61_wire_case :
  nth_error (x_co (vx_x (vx_ev1 ++ vx_ana))) 2 = Some (WcOn 2 None qc_reset) /\
  option_map se_root (nth_error (sv_sess (g_sv (x_g (vx_x (vx_ev1 ++ vx_ana))))) 2) = Some false /\
  n_users (w_ns (sv_w (g_sv (x_g (vx_x (vx_ev1 ++ vx_ana)))))) <> [] /\
  map (fun x => option_map snd (vx_step x (vx_q 2 0 "inspect global"))) [vx_x (vx_ev1 ++ vx_ana); waccounts [] (vx_x (vx_ev1 ++ vx_ana))] =
    let a := Some (sent (fun _ => []) (ResString (bstr "{""spaces"":[""shop""],""settings"":{}}")), None) in [a; a].
Proof. split; [vm_compute; reflexivity|]. split; [vm_compute; reflexivity|]. split; [vm_compute; discriminate|]. vm_compute. reflexivity. Qed.

(** the packets of INSPECT after a restart, on a connection of root: one model with two rows *)
Definition vx_again : list wev :=
  vx_ev1 ++ [vx_d 0 "insert into items(?, ?)" [1; 10]%N; vx_d 1 "insert into items(?, ?)" [2; 20]%N; WBack (GTake wx_i); WBack (GBegin 0);
             WBack (GStep wx_i WoOk); WBack (GStep wx_i WoOk); WBack (GEnd wx_i WoOk); WBack (GRestart gx_pw 0); WConnect; vx_recv 2 0 (vx_hello ROOT gx_pw)].

Example C55_wire_case : exists h x, sending noarith idorder gx_hash gx_verify (fun _ => true) (fun _ => None) (fun _ => []) vx_any gx_pw 0 h x 2 0 None [] /\
  Exists restarted h /\
  completed_by [] (packet (bstr "inspect model shop.items") []) (bstr "inspect model shop.items") [] /\
  says (fun _ => true) (fun _ => None) vx_gn None (bstr "inspect model shop.items") [] (SayInspect (insp_req_of (InModel wx_i))) /\
  option_map (fun m => lo_pk (md_lay m)) (aget ent_eqb wx_i (n_models (w_ns (sv_w (g_sv (x_g x)))))) = Some (bstr "id") /\ rows_at wx_i (x_g x) = 2%N /\
  map (fun q => option_map snd (vx_step x (vx_q 2 0 q))) ["inspect model shop.items"; "inspect global"; "inspect space shop"; "inspect space nowhere"]%string =
  map (fun r => Some (sent (fun _ => []) r, None))
    [ResString (bstr "{""decl"":""{*id:UInt64,!n:UInt8}"",""rows"":2,""properties"":{}}"); ResString (bstr "{""spaces"":[""shop""],""users"":[""root""],""settings"":{}}");
     ResString (bstr "{""models"":[""items""]}}"); ResError 100].
Proof.
  exists (vx_h vx_again), (vx_x vx_again). split.
  { exists (vx_h vx_again), (vx_x vx_again), []. split; [symmetry; apply app_nil_r|]. split; [apply vx_hist; [vm_compute; discriminate|vm_compute; reflexivity]|].
    split; [vm_compute; reflexivity|]. split; [constructor|]. split; [constructor|reflexivity]. }
  split.
  { apply Exists_exists. exists (nth 16 (vx_h vx_again) (WConnect, ([], None))). split; [|vm_compute; exact Logic.I]. apply nth_In. vm_compute. repeat constructor. }
  split.
  { eexists. split; [apply packet_is_packet; vm_compute; reflexivity|]. split; [vm_compute; reflexivity|]. split; [constructor|]. split; [vm_compute; discriminate|]. vm_compute. reflexivity. }
  split.
  { apply (sy_inspect _ _ _ _ _ _ [kmis KmModel; TId gx_s; TSym SPeriod; TId gx_m]); [apply reads_lex; vm_compute; reflexivity|]. apply inspect_iff. vm_compute. reflexivity. }
  split; [vm_compute; reflexivity|]. split; vm_compute; reflexivity.
Qed.
