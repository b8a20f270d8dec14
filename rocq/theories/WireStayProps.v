(** C28, C110: what a refused client is told, and when a connection ends; added after wrong programs had
    passed the first statements. *)
From Coq Require Import Strings.String List NArith Bool Arith Lia.
From Verif Require Import Bytes AMap DataModel CodecModel NumModel NumProofs NetModel NetProofs NetProps GnsModel GnsProofs GnsProps GnsHist RowModel RowSpec RowProps LexModel LexSpec
  ParseModel ParseSpec ParseSel DdlModel DdlSpec DdlAll ExecModel InspectModel BatchModel BatchProps UpgradeModel WholeModel WholeSpec WholeProps
  WireModel WireSpec WireProofs WirePerform WireLogin WireProps.
Import ListNotations.
Local Open Scope nat_scope.

(** ** C28: the answer to a login *)

(** A client is told that it is logged in exactly when a complete hello with accepted credentials has
    been received, however it was cut. *)
Theorem C28_told verify chunks input : NetProps.reads chunks input ->
  (hs_answer verify (hs_run hc_init chunks) = Some welcome <-> exists u p unread, hello_of input u p unread /\ verify u p <> None).
Proof.
  intros RD. split.
  - intros A. destruct (hs_run hc_init chunks) as [c|u p rest|e| | |] eqn:E; try discriminate A. cbn [hs_answer] in A.
    destruct (verify u p) as [b|] eqn:V; [|discriminate A].
    destruct (proj1 (C28_login_parsed_iff_hello_partial chunks input u p RD)) as (un & H); [eexists; exact E|].
    exists u, p, un. split; [exact H|]. rewrite V. discriminate.
  - intros (u & p & un & H & V). destruct (proj2 (C28_login_parsed_iff_hello_partial chunks input u p RD)) as (rest & E); [eexists; exact H|].
    rewrite E. cbn [hs_answer]. destruct (verify u p); [reflexivity|destruct (V eq_refl)].
Qed.
(** A client whose hello is complete and whose credentials are not accepted is told so. *)
Theorem C28_told_refused verify chunks input u p unread : NetProps.reads chunks input -> hello_of input u p unread -> verify u p = None ->
  hs_answer verify (hs_run hc_init chunks) = Some refusal.
Proof.
  intros RD H V. destruct (proj2 (C28_login_parsed_iff_hello_partial chunks input u p RD)) as (rest & E); [eexists; exact H|].
  rewrite E. cbn [hs_answer]. rewrite V. reflexivity.
Qed.
Print Assumptions C28_told.
Print Assumptions C28_told_refused.
Example C28_told_example :
  let v := fun u p => if bseq u (bstr "root"%string) && bseq p (bstr "secret"%string) then Some true else None in
  let w := fun u p => if bseq u (bstr "root"%string) && bseq p (bstr "Secret"%string) then Some true else None in
  let c := [firstn 7 ex_hello; skipn 7 ex_hello] in
  NetProps.reads c ex_hello /\ hello_of ex_hello (bstr "root"%string) (bstr "secret"%string) [] /\
  v (bstr "root"%string) (bstr "secret"%string) <> None /\ w (bstr "root"%string) (bstr "secret"%string) = None /\
  hs_answer v (hs_run hc_init c) = Some welcome /\ hs_answer w (hs_run hc_init c) = Some refusal.
Proof.
  cbv zeta. split; [split; [repeat constructor; discriminate|]; split; vm_compute; reflexivity|]. split.
  - exists (bstr "4"%string), (bstr "6"%string). split; [reflexivity|].
    split; [repeat constructor; vm_compute; discriminate|]. split; [repeat constructor; vm_compute; discriminate|].
    repeat split; vm_compute; discriminate || reflexivity.
  - split; [vm_compute; discriminate|]. repeat split; vm_compute; reflexivity.
Qed.

(** ** C110: when a connection ends *)

Section Stay.
Variable farith : aop -> N -> N -> N.
Variable order : fieldmap -> fieldmap.
Variable hash : bytes -> N -> bytes.
Variable verify : bytes -> bytes -> bool.
Variable u8 : bytes -> bool.
Variable fl : bytes -> option N.
Variable ftoa : N -> bytes.
Notation wstep := (wstep farith order hash verify u8 fl ftoa).
Notation wruns := (wruns farith order hash verify u8 fl ftoa).
Notation perform := (perform farith order hash verify u8 fl ftoa).

Lemma q_read_emit c ch e c' : q_read c ch = QEmit e c' -> c' = qc_reset.
Proof using.
  unfold q_read. destruct ch as [|b ch]; [discriminate|]. destruct (_ <? _)%N; [discriminate|].
  destruct (q_resume _ _ _) as [[p w|st|] r]; [|discriminate|intros E; injection E as _ <-; reflexivity].
  destruct (takeN w p) as [[q ps]|]; [|discriminate]. intros E. injection E as _ <-. reflexivity.
Qed.

(** A logged-in client that gets an answer, also one that says that its packet is illegal, is still
    connected, on the same session, and the server waits for its next packet. *)
Theorem C110_answered_stays : forall x j i cs c en gn ch x' b d, nth_error (x_co x) j = Some (WcOn i cs c) ->
  wstep x (WRecv j en gn ch) = Some (x', (b, d)) -> b <> [] -> exists cs', idle x' j i cs'.
Proof using.
  intros x j i cs c en gn ch x' b d E ST NB. cbn [WireModel.wstep] in ST. rewrite E in ST. unfold read_query in ST.
  destruct (q_read c ch) as [c'|[q p|] c'| |] eqn:QR; try (injection ST as <- <- <-; contradiction).
  - apply q_read_emit in QR. subst c'.
    destruct (perform (x_g x) i cs en gn q p) as [| |g' d'|g' cs' r d']; try discriminate ST; injection ST as <- <- <-; [contradiction|].
    exists cs'. apply put_nth_same. eapply nth_lt; exact E.
  - apply q_read_emit in QR. subst c'. injection ST as <- <- <-. exists cs. apply put_nth_same. eapply nth_lt; exact E.
Qed.

(** the bytes received since the connection was idle, none of which was answered, are in the buffer *)
Lemma silent C x1 h2 x2 j i cs : nth_error (x_co x1) j = Some (WcOn i cs qc_reset) -> wruns C x1 h2 x2 ->
  Forall (fun e => ~ restarted e) h2 -> Forall (fun c => c <> []) (received j h2) -> (len (concat (received j h2)) < two64)%N ->
  (forall en gn ch b d, In (WRecv j en gn ch, (b, d)) h2 -> b = []) ->
  nth_error (x_co x2) j = Some WcOff \/ exists c, nth_error (x_co x2) j = Some (WcOn i cs c) /\ qshape (concat (received j h2)) c.
Proof using.
  intros S0 R. induction R as [|h x e x' b d R IH ST CC]; intros NR NE LT SI.
  - right. exists qc_reset. split; [exact S0|exact qshape_reset].
  - apply Forall_app in NR as [NR1 NR2]. inversion NR2 as [|? ? NR3 _]; subst. rewrite received_snoc in *. apply Forall_app in NE as [NE1 NE2].
    rewrite concat_app in LT |- *. pose proof LT as LT0. rewrite len_app in LT0.
    assert (IH' := IH NR1 NE1 ltac:(lia) (fun en gn ch b0 d0 X => SI en gn ch b0 d0 (in_or_app _ _ _ (or_introl X)))). clear IH.
    assert (OTHER : (forall en gn ch, e <> WRecv j en gn ch) -> received1 j (e, (b, d)) = [] /\ (nth_error (x_co x') j = nth_error (x_co x) j \/ nth_error (x_co x) j = None)).
    { intros NJ. split.
      - destruct e as [|j' en gn ch|o]; try reflexivity. cbn. destruct (Nat.eq_dec j' j) as [->|]; [destruct (NJ en gn ch eq_refl)|reflexivity].
      - destruct (wstep_other farith order hash verify u8 fl ftoa _ _ _ _ _ j ST NJ) as [E|[(E & _)|[_ E]]]; [left; exact E|right; exact E|contradiction]. }
    assert (DONE : (forall en gn ch, e <> WRecv j en gn ch) -> nth_error (x_co x') j = Some WcOff \/
       (exists c, nth_error (x_co x') j = Some (WcOn i cs c) /\ qshape (concat (received j h) ++ concat (received1 j (e, (b, d)))) c)).
    { intros NJ. destruct (OTHER NJ) as [R1 EQ]. rewrite R1. cbn [concat]. rewrite app_nil_r. destruct IH' as [E|(c & E & Q)].
      - left. destruct EQ as [->|X]; [exact E|congruence].
      - right. exists c. split; [|exact Q]. destruct EQ as [->|X]; [exact E|congruence]. }
    destruct e as [|j' en gn ch|o]; [apply DONE; discriminate| |apply DONE; discriminate].
    destruct (Nat.eq_dec j' j) as [->|NJ]; [|apply DONE; congruence].
    assert (R1 : received1 j (WRecv j en gn ch, (b, d)) = [ch]) by (cbn; destruct (Nat.eq_dec j j); congruence).
    rewrite R1 in *. cbn [concat] in *. rewrite app_nil_r in *. inversion NE2 as [|? ? NC _]; subst.
    assert (B0 : b = []) by (eapply SI; apply in_or_app; right; left; reflexivity). subst b.
    cbn [WireModel.wstep] in ST. destruct IH' as [E|(c & E & Q)]; rewrite E in ST; [discriminate ST|].
    unfold read_query in ST. pose proof (q_read_shape _ _ ch Q NC LT) as QS.
    destruct (q_read c ch) as [c2|[q p|] c2| |] eqn:QR.
    + injection ST as <- <-. right. exists c2. split; [|exact QS]. apply put_nth_same. eapply nth_lt; exact E.
    + destruct (perform (x_g x) i cs en gn q p) as [| |g' d'|g' cs' r d']; try discriminate ST.
      * injection ST as <- <-. left. apply put_nth_same. eapply nth_lt; exact E.
      * exfalso. injection ST as _ X _. destruct r; discriminate X.
    + exfalso. discriminate ST.
    + injection ST as <- <-. left. apply put_nth_same. eapply nth_lt; exact E.
    + injection ST as <- <-. left. apply put_nth_same. eapply nth_lt; exact E.
Qed.

(** Only a complete packet, or the client hanging up, can end a connection, and then nothing is written:
    bytes that are no packet are answered or waited for. *)
Theorem C110_ends_only : forall C x1 h2 x j i cs ch en gn x' b d, idle x1 j i cs -> wruns C x1 h2 x -> Forall (fun e => ~ restarted e) h2 ->
  Forall (fun c => c <> []) (received j h2) -> (len (concat (received j h2) ++ ch) < two64)%N -> (forall en gn ch b d, In (WRecv j en gn ch, (b, d)) h2 -> b = []) ->
  ~ closed x j -> wstep x (WRecv j en gn ch) = Some (x', (b, d)) -> closed x' j ->
  b = [] /\ (ch = [] \/ exists ds ws body, (concat (received j h2) ++ ch)%list = Byte.x53 :: ds ++ LF :: ws ++ LF :: body /\ all_digits ds /\ all_digits ws /\
     horner 0 ds = (len ws + 1 + len body)%N).
Proof using.
  intros C x1 h2 x j i cs ch en gn x' b d ID R NR NE LT SI NC ST CL. pose proof LT as LT0. rewrite len_app in LT0.
  destruct (silent C x1 h2 x j i cs ID R NR NE ltac:(lia) SI) as [E|(c & E & Q)]; [contradiction|].
  split.
  - destruct b as [|b0 b]; [reflexivity|]. exfalso. destruct (C110_answered_stays x j i cs c en gn ch x' (b0 :: b) d E ST) as [cs' X]; [discriminate|].
    unfold idle, closed in *. congruence.
  - destruct ch as [|c0 ch]; [left; reflexivity|]. right. set (ck := c0 :: ch) in *. assert (NK : ck <> []) by discriminate.
    pose proof (q_read_shape _ _ ck Q NK LT) as QS. cbn [WireModel.wstep] in ST. rewrite E in ST. unfold read_query in ST.
    assert (OPEN : forall g w, mk_wst g (put_nth j w (x_co x)) = x' -> w = WcOff).
    { intros g w <-. unfold closed in CL. cbn [x_co] in CL. rewrite put_nth_same in CL by (eapply nth_lt; exact E). injection CL as ->. reflexivity. }
    destruct (q_read c ck) as [c2|[q p|] c2| |] eqn:QR.
    + injection ST as X _ _. discriminate (OPEN _ _ X).
    + destruct QS as [(ds & ws & EB & D1 & D2 & H1 & H2) _]. exists ds, ws, (q ++ p). auto.
    + injection ST as X _ _. discriminate (OPEN _ _ X).
    + contradiction.
    + destruct QS as (body & w & (ds & ws & EB & D1 & D2 & H1 & H2) & _). exists ds, ws, body. auto.
Qed.

(** Bytes that do not begin like a packet are answered with error 6 as soon as there are five of them;
    nothing is carried out, no other connection is touched, and the connection is idle again. *)
Theorem C110_no_packet : forall C x1 h2 x j i cs ch en gn, idle x1 j i cs -> wruns C x1 h2 x -> Forall (fun e => ~ restarted e) h2 ->
  Forall (fun c => c <> []) (received j h2) -> ch <> [] -> (len (concat (received j h2)) < 5)%N -> (5 <= len (concat (received j h2) ++ ch) < two64)%N ->
  hd_error (concat (received j h2) ++ ch) <> Some Byte.x53 ->
  exists x', wstep x (WRecv j en gn ch) = Some (x', (sent ftoa (ResError 6), None)) /\ x_g x' = x_g x /\ idle x' j i cs /\ others j x x'.
Proof using.
  intros C x1 h2 x j i cs ch en gn ID R NR NE NC L5 LT HD.
  assert (W : exists c, nth_error (x_co x) j = Some (WcOn i cs c) /\ c = {| qc_buf := concat (received j h2); qc_cur := 0; qc_st := q_new |}).
  { clear HD LT NC ch en gn. revert NR NE L5. induction R as [|h x e x' b d R IH ST CC]; intros NR NE L5.
    - exists qc_reset. split; [exact ID|reflexivity].
    - apply Forall_app in NR as [NR1 NR2]. inversion NR2 as [|? ? NR3 _]; subst. rewrite received_snoc in *. apply Forall_app in NE as [NE1 NE2].
      rewrite concat_app in *. rewrite len_app in L5. destruct (IH NR1 NE1 ltac:(lia)) as (c & E & ->). clear IH.
      assert (DONE : (forall en gn ch, e <> WRecv j en gn ch) -> exists c, nth_error (x_co x') j = Some (WcOn i cs c) /\
         c = {| qc_buf := concat (received j h) ++ concat (received1 j (e, (b, d))); qc_cur := 0; qc_st := q_new |}).
      { intros NJ. assert (R1 : received1 j (e, (b, d)) = []).
        { destruct e as [|j' en gn ch|o]; try reflexivity. cbn. destruct (Nat.eq_dec j' j) as [->|]; [destruct (NJ en gn ch eq_refl)|reflexivity]. }
        rewrite R1. cbn [concat]. rewrite app_nil_r. eexists. split; [|reflexivity].
        destruct (wstep_other farith order hash verify u8 fl ftoa _ _ _ _ _ j ST NJ) as [E2|[(E2 & _)|[_ E2]]]; [rewrite E2; exact E|congruence|contradiction]. }
      destruct e as [|j' en gn ch|o]; [apply DONE; discriminate| |apply DONE; discriminate].
      destruct (Nat.eq_dec j' j) as [->|NJ]; [|apply DONE; congruence]. clear DONE.
      assert (R1 : received1 j (WRecv j en gn ch, (b, d)) = [ch]) by (cbn; destruct (Nat.eq_dec j j); congruence).
      rewrite R1 in *. cbn [concat] in *. rewrite app_nil_r in *. inversion NE2 as [|? ? NC _]; subst.
      cbn [WireModel.wstep] in ST. rewrite E in ST. unfold read_query, q_read in ST. destruct ch as [|c0 ch]; [contradiction|].
      cbn [qc_buf qc_st qc_cur q_target q_new] in ST.
      assert (LB : (len (concat (received j h) ++ c0 :: ch) <? 5)%N = true) by (apply N.ltb_lt; rewrite len_app; lia).
      rewrite LB in ST. injection ST as <- <- <-. eexists. split; [apply put_nth_same; eapply nth_lt; exact E|reflexivity]. }
  destruct W as (c & E & ->). cbn [WireModel.wstep]. rewrite E. unfold read_query, q_read. destruct ch as [|c0 ch]; [contradiction|].
  cbn [qc_buf qc_st qc_cur q_target q_new skipn].
  assert (LB : (len (concat (received j h2) ++ c0 :: ch) <? 5)%N = false) by (apply N.ltb_ge; lia).
  rewrite LB. unfold q_resume. cbn [q_phase q_new]. unfold q_initial.
  destruct (concat (received j h2) ++ c0 :: ch) as [|a r] eqn:EB; [destruct (concat (received j h2)); discriminate EB|].
  cbn [hd_error] in HD. destruct (beq a Byte.x53) eqn:BE; [apply beq_eq in BE; subst a; destruct (HD eq_refl)|].
  destruct (put_idle (x_g x) x j i cs (nth_lt _ _ _ E)) as [Q1 Q2].
  eexists. split; [reflexivity|]. split; [reflexivity|]. split; [exact Q1|exact Q2].
Qed.
End Stay.
Print Assumptions C110_answered_stays.
Print Assumptions C110_ends_only.
Print Assumptions C110_no_packet.

(** root logs in; "GET / " comes in two reads and is answered with error 6; the next packet is carried out *)
Definition sx_ev1 : list wev := [WConnect; vx_recv 0 0 (vx_hello ROOT gx_pw)].
Definition sx_ev2 : list wev := [vx_recv 0 0 (bstr "GE")].
Lemma sx_runs : vx_wruns vx_any (vx_x sx_ev1) [(vx_recv 0 0 (bstr "GE"), ([], None))] (vx_x (sx_ev1 ++ sx_ev2)).
Proof.
  eapply (vx_go_runs vx_any (fun _ _ _ => true)) with (l := sx_ev2) (x := vx_x sx_ev1) (h := []); [intros; exact Logic.I|constructor| |]; vm_compute; reflexivity.
Qed.
Example C110_no_packet_example :
  let x := vx_x (sx_ev1 ++ sx_ev2) in let h2 := [(vx_recv 0 0 (bstr "GE"), ([], None))] in
  idle (vx_x sx_ev1) 0 0 None /\ vx_wruns vx_any (vx_x sx_ev1) h2 x /\ Forall (fun e => ~ restarted e) h2 /\ received 0 h2 = [bstr "GE"] /\
  hd_error (concat (received 0 h2) ++ bstr "T / ") <> Some Byte.x53 /\ (len (bstr "GE") < 5 <= len (concat (received 0 h2) ++ bstr "T / "))%N /\
  match vx_step x (vx_recv 0 0 (bstr "T / ")) with
  | Some (x', (b, d)) => (bseq b (sent (fun _ => []) (ResError 6)), match vx_step x' (vx_q 0 11 "create space shop") with
                                                                     | Some (_, (b2, d2)) => (bseq b2 (sent (fun _ => []) ResEmpty), match d2 with Some _ => true | None => false end)
                                                                     | None => (false, false) end)
  | None => (false, (false, false))
  end = (true, (true, true)).
Proof.
  cbv zeta. split; [vm_compute; reflexivity|]. split; [exact sx_runs|]. split; [repeat constructor; intros []|]. split; [reflexivity|].
  split; [discriminate|]. split; [split; vm_compute; [reflexivity|discriminate]|]. vm_compute. reflexivity.
Qed.
(** a complete packet that says its text is longer than the packet ends the connection *)
Example C110_ends_only_example :
  let x := vx_x (sx_ev1 ++ [vx_recv 0 0 (bstr "S5" ++ [LF])]) in let h2 := [(vx_recv 0 0 (bstr "S5" ++ [LF]), ([], None))] in
  let ch := bstr "90" ++ [LF] ++ bstr "xy" in
  idle (vx_x sx_ev1) 0 0 None /\ vx_wruns vx_any (vx_x sx_ev1) h2 x /\ Forall (fun e => ~ restarted e) h2 /\
  match nth_error (x_co x) 0 with Some (WcOn _ _ _) => true | _ => false end = true /\
  match vx_step x (vx_recv 0 0 ch) with Some (x', ([], None)) => match nth_error (x_co x') 0 with Some WcOff => true | _ => false end | _ => false end = true.
Proof.
  cbv zeta. split; [vm_compute; reflexivity|]. split.
  - eapply (vx_go_runs vx_any (fun _ _ _ => true)) with (l := [vx_recv 0 0 (bstr "S5" ++ [LF])]) (x := vx_x sx_ev1) (h := []); [intros; exact Logic.I|constructor| |]; vm_compute; reflexivity.
  - split; [repeat constructor; intros []|]. split; vm_compute; reflexivity.
Qed.
