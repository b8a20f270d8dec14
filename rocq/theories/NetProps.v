(** Wire protocol: the property theorems (C28-C33, C52, C53). *)
From Coq Require Import Strings.String List Arith NArith ZArith Lia Bool.
From Verif Require Import Bytes DataModel NumModel NumProofs NetModel NetProofs.
Import ListNotations.
Local Open Scope N_scope.

(** a sequence of network reads: none is empty (an empty read means the peer closed) and the total
    fits in the address space *)
Definition reads (chunks : list bytes) (input : bytes) : Prop :=
  Forall (fun ch => ch <> []) chunks /\ concat chunks = input /\ len input < two64.

(* ------------------------------------------------------------------ *)
(** * C28: the handshake and fragmentation *)

(** A login is parsed, with a given name and password, exactly when the bytes received contain a
    complete hello for them: no fragmentation can make a difference. *)
Theorem C28_login_parsed_iff_hello_partial chunks input u p :
  reads chunks input ->
  (exists rest, hs_run hc_init chunks = HFinal u p rest) <-> (exists unread, hello_of input u p unread).
Proof.
  intros (HN & HC & LT). split.
  - intros (rest & E).
    destruct (hs_run_sound chunks [] hc_init hinv_init HN) as [(c' & E' & _)|(v & x & V & S & L & _)].
    + cbn [app]. rewrite HC. exact LT.
    + congruence.
    + cbn [app] in *. rewrite HC in *. rewrite E in S. destruct v; cbn in S; try contradiction.
      destruct S as (-> & -> & ->).
      destruct (hs_initial input) as [[a b| | | |] r] eqn:EI; try discriminate.
      cbn in V. injection V as -> -> ->. exists (rest ++ x). apply hs_initial_done; assumption.
  - intros (unread & H). destruct chunks as [|ch chunks].
    + cbn in HC. subst input. destruct H as (ds & es & E & _). discriminate.
    + destruct (hs_run_complete (ch :: chunks) [] hc_init u p unread hinv_init HN) as (rest & k & E & _).
      * discriminate.
      * cbn [app]. rewrite HC. exact LT.
      * cbn [app]. rewrite HC. exact H.
      * eauto.
Qed.

(** Nothing beyond the hello is consumed: what stays in the buffer, followed by the reads not yet
    made, is exactly what follows the hello. *)
Theorem C28_never_reads_beyond_the_hello chunks input u p rest :
  reads chunks input -> hs_run hc_init chunks = HFinal u p rest ->
  exists k, hello_of input u p (rest ++ concat (skipn k chunks)).
Proof.
  intros (HN & HC & LT) E.
  destruct (hs_run_sound chunks [] hc_init hinv_init HN) as [(c' & E' & _)|(v & x & V & S & L & k & Ek & _)].
  - cbn [app]. rewrite HC. exact LT.
  - congruence.
  - cbn [app] in *. rewrite HC in *. rewrite E in S. destruct v; cbn in S; try contradiction.
    destruct S as (-> & -> & ->).
    destruct (hs_initial input) as [[a b| | | |] r] eqn:EI; try discriminate.
    cbn in V. subst x. injection V as -> -> ->. exists k. apply hs_initial_done; assumption.
Qed.

(** Two fragmentations of the same bytes never get different answers (one of them may still be
    waiting). *)
Theorem C28_answers_agree_partial verify c1 c2 input a1 a2 :
  reads c1 input -> reads c2 input ->
  hs_answer verify (hs_run hc_init c1) = Some a1 -> hs_answer verify (hs_run hc_init c2) = Some a2 ->
  a1 = a2.
Proof.
  intros (N1 & E1 & LT) (N2 & E2 & _) A1 A2.
  destruct (hs_run_sound c1 [] hc_init hinv_init N1) as [(c' & E' & _)|(v1 & x1 & V1 & S1 & _)].
  { cbn [app]. rewrite E1. exact LT. }
  { rewrite E' in A1. discriminate. }
  destruct (hs_run_sound c2 [] hc_init hinv_init N2) as [(c' & E' & _)|(v2 & x2 & V2 & S2 & _)].
  { cbn [app]. rewrite E2. exact LT. }
  { rewrite E' in A2. discriminate. }
  cbn [app] in *. rewrite E1 in V1. rewrite E2 in V2. rewrite V1 in V2. injection V2 as <-.
  destruct (hs_run hc_init c1), v1; cbn in S1; try contradiction;
  destruct (hs_run hc_init c2); cbn in S2; try contradiction; cbn in A1, A2; try discriminate.
  - destruct S1 as (-> & -> & _). destruct S2 as (-> & -> & _). congruence.
  - congruence.
Qed.

(** The full statement (same decision whatever the fragmentation) is false: the loop waits for
    [uname_l + 2] bytes in total before looking at the password length again, so a malformed hello
    that is rejected when it arrives at once leaves the server waiting when it arrives in two reads. *)
Theorem C28_same_decision_refuted :
  exists c1 c2 input e c', reads c1 input /\ reads c2 input /\
    hs_run hc_init c1 = HReject e /\ hs_run hc_init c2 = HWait c'.
Proof.
  exists [HDR ++ bstr "100"%string ++ [LF] ++ bstr "x"%string],
         [HDR ++ bstr "100"%string ++ [LF]; bstr "x"%string],
         (HDR ++ bstr "100"%string ++ [LF] ++ bstr "x"%string), PCorrupted.
  eexists. split; [|split; [|split]].
  - split; [repeat constructor; discriminate|]. split; [reflexivity|vm_compute; reflexivity].
  - split; [repeat constructor; discriminate|]. split; [reflexivity|vm_compute; reflexivity].
  - vm_compute. reflexivity.
  - vm_compute. reflexivity.
Qed.

(** a login for "root"/"secret" in three reads, with two pipelined bytes *)
Definition ex_hello : bytes :=
  HDR ++ bstr "4"%string ++ [LF] ++ bstr "6"%string ++ [LF] ++ bstr "root"%string ++ bstr "secret"%string.
Example C28_example_iff :
  reads [firstn 7 ex_hello; firstn 5 (skipn 7 ex_hello); skipn 12 ex_hello ++ [x53; x30]] (ex_hello ++ [x53; x30]) /\
  hello_of (ex_hello ++ [x53; x30]) (bstr "root"%string) (bstr "secret"%string) [x53; x30] /\
  hs_run hc_init [firstn 7 ex_hello; firstn 5 (skipn 7 ex_hello); skipn 12 ex_hello ++ [x53; x30]]
   = HFinal (bstr "root"%string) (bstr "secret"%string) [x53; x30].
Proof.
  split; [|split].
  - split; [repeat constructor; discriminate|]. split; vm_compute; reflexivity.
  - exists (bstr "4"%string), (bstr "6"%string). split; [reflexivity|].
    split; [repeat constructor; vm_compute; discriminate|]. split; [repeat constructor; vm_compute; discriminate|].
    repeat split; vm_compute; discriminate || reflexivity.
  - vm_compute. reflexivity.
Qed.
Example C28_example_agree :
  let v := fun u p => if bseq u (bstr "root"%string) && bseq p (bstr "secret"%string) then Some true else None in
  hs_answer v (hs_run hc_init [ex_hello]) = Some [x48; x00; x00; x00] /\
  hs_answer v (hs_run hc_init (map (fun b => [b]) ex_hello)) = Some [x48; x00; x00; x00] /\
  reads [ex_hello] ex_hello /\ reads (map (fun b => [b]) ex_hello) ex_hello.
Proof.
  split; [vm_compute; reflexivity|]. split; [vm_compute; reflexivity|]. split.
  - split; [repeat constructor; discriminate|]. split; vm_compute; reflexivity.
  - split; [repeat constructor; discriminate|]. split; vm_compute; reflexivity.
Qed.

(* ------------------------------------------------------------------ *)
(** * C29: crashing hellos *)

(** The full statement is false: the plain-text start of an HTTP request crashes the handler, and
    a hello declaring sizes whose sum wraps makes it build slices beyond its buffer, before any
    authentication. *)
Theorem C29_no_crash_refuted :
  (exists input, reads [input] input /\ hs_run hc_init [input] = HCrash) /\
  (exists input, reads [input] input /\ hs_run hc_init [input] = HUnsafe).
Proof.
  split.
  - exists (bstr "GET / HTTP/1.1"%string). split.
    + split; [repeat constructor; discriminate|]. split; vm_compute; reflexivity.
    + vm_compute. reflexivity.
  - exists (HDR ++ bstr "18446744073709551615"%string ++ [LF] ++ bstr "1"%string ++ [LF]). split.
    + split; [repeat constructor; discriminate|]. split; vm_compute; reflexivity.
    + vm_compute. reflexivity.
Qed.

(** The handler panics exactly for the first six bytes that fail the checks in one of the bad
    combinations, whatever follows and however fragmented. *)
Theorem C29_panics_exactly_for_bad_headers_partial chunks input :
  reads chunks input ->
  (hs_run hc_init chunks = HCrash <->
   exists b0 b1 b2 b3 b4 b5 r, input = b0 :: b1 :: b2 :: b3 :: b4 :: b5 :: r /\
     crashing_header b0 b1 b2 b3 b4 b5 = true).
Proof.
  intros (HN & HC & LT).
  destruct (hs_run_sound chunks [] hc_init hinv_init HN) as [(c' & E' & HI)|(v & x & V & S & L & _)].
  { cbn [app]. rewrite HC. exact LT. }
  - cbn [app] in HI. rewrite HC in HI. split; [congruence|].
    intros (b0 & b1 & b2 & b3 & b4 & b5 & r & -> & CR). exfalso.
    destruct HI as (HB & HCu & HE & HS & HI0).
    assert (X : [b0; b1; b2; b3; b4; b5] = HDR).
    { destruct (hc_st c'); cbn [shape] in HS.
      - destruct HI0 as [_ L6]; [reflexivity|]. rewrite !len_cons in L6. lia.
      - unfold HDR in *. cbn [app] in HS. inversion HS. reflexivity.
      - destruct HS as (ds & HS & _). unfold HDR in *. cbn [app] in HS. inversion HS. reflexivity.
      - destruct HS as (ds & es & HS & _). unfold HDR in *. cbn [app] in HS. inversion HS. reflexivity. }
    unfold HDR in X. inversion X; subst. discriminate.
  - cbn [app] in *. rewrite HC in *.
    destruct (six input L) as (b0 & b1 & b2 & b3 & b4 & b5 & r & EI).
    split.
    + intros E. rewrite E in S. destruct v; cbn in S; try contradiction.
      exists b0, b1, b2, b3, b4, b5, r. split; [assumption|].
      destruct (hs_initial_cases b0 b1 b2 b3 b4 b5 r) as [[X1 X2]|[(X1 & X2 & X3)|(X1 & X2 & er & X3)]].
      * exfalso. rewrite EI, X2 in V.
        unfold hs_meta1, hs_meta2, hs_variable in V.
        destruct (len r <? 4); [discriminate|]. destruct (lf_u64 r) as [u0 r0| |]; try discriminate.
        destruct (lf_u64 r0) as [p0 r1| |]; try discriminate. destruct (_ <=? _); [|discriminate].
        destruct (takeN u0 r1) as [[? ?]|]; [|discriminate]. destruct (takeN p0 b6) as [[? ?]|]; discriminate.
      * assumption.
      * exfalso. rewrite EI, X3 in V. discriminate.
    + intros (c0 & c1 & c2 & c3 & c4 & c5 & r' & EI' & CR).
      rewrite EI in EI'. injection EI' as <- <- <- <- <- <- <-.
      destruct (hs_initial_cases b0 b1 b2 b3 b4 b5 r) as [[X1 X2]|[(X1 & X2 & X3)|(X1 & X2 & er & X3)]].
      * exfalso. unfold HDR in X1. inversion X1; subst. discriminate.
      * rewrite EI, X3 in V. cbn in V. injection V as <-.
        destruct (hs_run hc_init chunks); cbn in S; try contradiction. reflexivity.
      * congruence.
Qed.

(** Slices beyond the buffer are only built for a hello that declares a name and a password size
    whose sum does not fit in 64 bits. *)
Theorem C29_out_of_bounds_only_on_wrapping_sizes_partial chunks input :
  reads chunks input -> hs_run hc_init chunks = HUnsafe ->
  exists ds es r, input = HDR ++ ds ++ LF :: es ++ LF :: r /\ all_digits ds /\ all_digits es /\
    horner 0 ds < two64 /\ horner 0 es < two64 /\ two64 <= horner 0 ds + horner 0 es.
Proof.
  intros (HN & HC & LT) E.
  destruct (hs_run_sound chunks [] hc_init hinv_init HN) as [(c' & E' & HI)|(v & x & V & S & L & _)].
  { cbn [app]. rewrite HC. exact LT. }
  { congruence. }
  cbn [app] in *. rewrite HC in *. rewrite E in S. destruct v; cbn in S; try contradiction.
  destruct (six input L) as (b0 & b1 & b2 & b3 & b4 & b5 & r & ->).
  destruct (hs_initial_cases b0 b1 b2 b3 b4 b5 r) as [[X1 X2]|[(X1 & X2 & X3)|(X1 & X2 & er & X3)]].
  2:{ rewrite X3 in V. discriminate. }
  2:{ rewrite X3 in V. discriminate. }
  rewrite X2 in V.
  assert (EQ : b0 :: b1 :: b2 :: b3 :: b4 :: b5 :: r = HDR ++ r) by (rewrite <- X1; reflexivity).
  rewrite EQ in *. clear EQ X1 X2.
  unfold hs_meta1, hs_meta2 in V.
  destruct (len r <? 4); [discriminate|]. destruct (lf_u64 r) as [u0 r0| |] eqn:E1; try discriminate.
  destruct (lf_u64 r0) as [p0 r1| |] eqn:E2; try discriminate.
  apply lf_u64_val_inv in E1 as (ds & -> & D1 & -> & U1). apply lf_u64_val_inv in E2 as (es & -> & D2 & -> & U2).
  exists ds, es, r1. repeat (split; [assumption || reflexivity|]).
  unfold hs_variable in V. destruct (N.leb_spec (wadd (horner 0 ds) (horner 0 es)) (len r1)) as [G|G]; [|discriminate].
  destruct (N.lt_ge_cases (horner 0 ds + horner 0 es) two64) as [Q|Q]; [exfalso|assumption].
  unfold wadd in G. rewrite N.mod_small in G by assumption.
  destruct (takeN (horner 0 ds) r1) as [[a r2]|] eqn:T1.
  2:{ apply takeN_none in T1. lia. }
  apply takeN_inv in T1 as [-> La]. rewrite len_app in G.
  destruct (takeN (horner 0 es) r2) as [[b r3]|] eqn:T2; [discriminate|].
  apply takeN_none in T2. lia.
Qed.

Example C29_example_panic :
  reads [bstr "GE"%string; bstr "T / HTTP"%string] (bstr "GET / HTTP"%string) /\
  hs_run hc_init [bstr "GE"%string; bstr "T / HTTP"%string] = HCrash.
Proof.
  split; [split; [repeat constructor; discriminate|split; vm_compute; reflexivity]|vm_compute; reflexivity].
Qed.
Example C29_example_oob :
  reads [HDR; bstr "18446744073709551615"%string ++ [LF]; bstr "3"%string ++ [LF] ++ bstr "ab"%string]
        (HDR ++ bstr "18446744073709551615"%string ++ [LF] ++ bstr "3"%string ++ [LF] ++ bstr "ab"%string) /\
  hs_run hc_init [HDR ++ bstr "18446744073709551615"%string ++ [LF] ++ bstr "3"%string ++ [LF] ++ bstr "ab"%string] = HUnsafe.
Proof.
  split; [split; [repeat constructor; discriminate|split; vm_compute; reflexivity]|vm_compute; reflexivity].
Qed.

(* ------------------------------------------------------------------ *)
(** * C53: the reported handshake error *)

(** which of the six header fields are wrong, numbered like the protocol error codes *)
Definition bad_fields (b0 b1 b2 b3 b4 b5 : byte) : list N :=
  (if beq b0 x48 then [] else [0]) ++
  flat_map (fun p => if beq (fst p) x00 then [] else [snd p]) [(b1, 1); (b2, 2); (b3, 3); (b4, 4); (b5, 5)].

(** With exactly one bad field the reported code is that field's. *)
Theorem C53_single_fault_reported_partial b0 b1 b2 b3 b4 b5 r chunks k :
  reads chunks (b0 :: b1 :: b2 :: b3 :: b4 :: b5 :: r) ->
  bad_fields b0 b1 b2 b3 b4 b5 = [k] ->
  exists e, hs_run hc_init chunks = HReject e /\ perr_code e = k.
Proof.
  intros (HN & HC & LT) BF.
  assert (NZ : forall b, beq b x00 = negb (0 <? b2n b)).
  { intros b. destruct b; reflexivity. }
  assert (HI : exists e, hs_initial (b0 :: b1 :: b2 :: b3 :: b4 :: b5 :: r) = (HErr e, r) /\ perr_code e = k).
  { unfold bad_fields in BF. cbn [flat_map fst snd] in BF. rewrite !NZ in BF. unfold hs_initial.
    destruct (beq b0 x48), (0 <? b2n b1), (0 <? b2n b2), (0 <? b2n b3), (0 <? b2n b4), (0 <? b2n b5);
      cbn in BF; try discriminate; injection BF as <-; eexists; (split; [reflexivity|reflexivity]). }
  destruct HI as (e & HI & PE). exists e. split; [|assumption].
  destruct (hs_run_sound chunks [] hc_init hinv_init HN) as [(c' & E' & IV)|(v & x & V & S & L & _)].
  { cbn [app]. rewrite HC. exact LT. }
  - exfalso. cbn [app] in IV. rewrite HC in IV.
    destruct IV as (HB & HCu & HE & HS & HI0).
    assert (X : [b0; b1; b2; b3; b4; b5] = HDR).
    { destruct (hc_st c'); cbn [shape] in HS.
      - destruct HI0 as [_ L6]; [reflexivity|]. rewrite !len_cons in L6. lia.
      - unfold HDR in *. cbn [app] in HS. inversion HS. reflexivity.
      - destruct HS as (ds & HS & _). unfold HDR in *. cbn [app] in HS. inversion HS. reflexivity.
      - destruct HS as (ds & es & HS & _). unfold HDR in *. cbn [app] in HS. inversion HS. reflexivity. }
    unfold HDR in X. inversion X; subst. discriminate.
  - cbn [app] in V. rewrite HC, HI in V. cbn in V. injection V as <-.
    destruct (hs_run hc_init chunks); cbn in S; try contradiction. subst. reflexivity.
Qed.

(** In general the reported field may be one that is perfectly fine: the codes of several bad
    fields are OR-ed together. *)
Theorem C53_reported_field_is_wrong_refuted :
  exists b0 b1 b2 b3 b4 b5 e,
    hs_run hc_init [[b0; b1; b2; b3; b4; b5]] = HReject e /\
    ~ In (perr_code e) (bad_fields b0 b1 b2 b3 b4 b5).
Proof.
  exists x47, x01, x00, x00, x00, x00, PProtocol. split; [vm_compute; reflexivity|].
  cbn. intros [X|[X|X]]; [discriminate|discriminate|assumption].
Qed.

Example C53_example : bad_fields x48 x00 x00 x07 x00 x00 = [3] /\
  hs_run hc_init [[x48; x00]; [x00; x07; x00; x00]] = HReject PExchange.
Proof. split; vm_compute; reflexivity. Qed.

(* ------------------------------------------------------------------ *)
(** * C30: query packets *)

(** Specification of a query packet: 'S', the number of bytes that follow the first LF, LF, the
    length of the query, LF, the query, the parameters. *)
Definition is_packet (P q params : bytes) : Prop :=
  exists ds ws, P = x53 :: ds ++ LF :: ws ++ LF :: q ++ params /\
    dec_text (len ws + 1 + len q + len params) ds /\ dec_text (len q) ws.

Lemma is_packet_ok P q params : is_packet P q params -> len P < two64 ->
  exists k, P = pkt_bytes k /\ pkt_ok k /\ p_body k = q ++ params /\ horner 0 (p_ws k) = len q.
Proof.
  intros (ds & ws & -> & D & W) LT. exists {| p_ds := ds; p_ws := ws; p_body := q ++ params |}.
  destruct D as (D1 & D2 & D3 & D4). destruct W as (W1 & W2 & W3 & W4).
  split; [reflexivity|]. split; [|split; [reflexivity|assumption]].
  unfold pkt_ok, pkt_bytes. cbn [p_ds p_ws p_body]. split; [assumption|]. split; [assumption|].
  split; [assumption|]. split; [assumption|]. split; [rewrite D3, len_app; lia|]. split; [|exact LT].
  rewrite W3. rewrite len_cons, len_app, len_cons, len_app, len_cons, len_app in LT. lia.
Qed.

(** However the packet is cut into reads, nothing happens until its last byte arrived, and then
    exactly this query with exactly these parameters is executed, and the connection is back in its
    start state. *)
Theorem C30_packet_delivered_intact P q params chunks ext :
  is_packet P q params -> len P < two64 -> Forall (fun ch => ch <> []) chunks -> concat chunks ++ ext = P ->
  (ext <> [] -> exists c, q_run qc_reset chunks = ([], QRunning c)) /\
  (ext = [] -> q_run qc_reset chunks = ([EvQuery q params], QRunning qc_reset)).
Proof.
  intros HP LT HN HC. destruct (is_packet_ok P q params HP LT) as (k & -> & OK & EB & EW).
  destruct chunks as [|ch chunks].
  { split; [intros _; exists qc_reset; reflexivity|]. intros ->. cbn in HC. discriminate. }
  destruct (q_run_packet k (ch :: chunks) OK HN [] qc_reset ext (qinv_reset k)) as [(NX & c' & E & _)|(EX & E)].
  - discriminate.
  - cbn [app]. symmetry. exact HC.
  - split; [eauto|contradiction].
  - split; [contradiction|]. intros _. rewrite E, EB, EW, takeN_exact. reflexivity.
Qed.

(** A whole conversation: any number of packets, each cut into reads in any way, provided the client
    waits for an answer before it sends the next packet (no read spans two packets). *)
Theorem C30_conversation_partial (conv : list (bytes * bytes * bytes * list bytes)) :
  Forall (fun t => let '(P, q, params, chunks) := t in
     is_packet P q params /\ len P < two64 /\ Forall (fun ch => ch <> []) chunks /\ concat chunks = P) conv ->
  q_run qc_reset (flat_map snd conv) =
    (map (fun t => let '(P, q, params, chunks) := t in EvQuery q params) conv, QRunning qc_reset).
Proof.
  induction 1 as [|[[[P q] params] chunks] conv (HP & LT & HN & HC) HF IH]; [reflexivity|].
  cbn [flat_map snd map].
  assert (APP : forall a b c es c', q_run c a = (es, QRunning c') ->
     q_run c (a ++ b) = (es ++ fst (q_run c' b), snd (q_run c' b))).
  { induction a as [|x a IHa]; intros b c es c' H.
    - cbn in *. injection H as <- <-. destruct (q_run c b). reflexivity.
    - cbn [q_run app] in *. destruct (q_read c x) as [c1|e c1| |]; try discriminate.
      + auto.
      + destruct (q_run c1 a) as [es1 f1] eqn:E1. injection H as <- ->.
        rewrite (IHa b c1 es1 c' E1). reflexivity. }
  destruct (C30_packet_delivered_intact P q params chunks [] HP LT HN) as [_ X].
  { rewrite app_nil_r. exact HC. }
  specialize (X eq_refl).
  rewrite (APP _ _ _ _ _ X), IH. reflexivity.
Qed.

(** the builder used by the project's own tests produces such packets *)
Lemma packet_is_packet q params : len (packet q params) < two64 -> is_packet (packet q params) q params.
Proof.
  intros LT. unfold packet in *. exists (dec_u64 (len (dec_u64 (len q) ++ [LF]) + len q + len params)), (dec_u64 (len q)).
  split; [rewrite <- !app_assoc; reflexivity|].
  rewrite len_cons, !len_app in LT. change (len [LF]) with 1 in LT.
  split.
  - rewrite len_app. change (len [LF]) with 1. apply dec_u64_text. lia.
  - apply dec_u64_text. lia.
Qed.

Definition ex_q : bytes := bstr "select * from mymodel where username = ?"%string.
Definition ex_p : bytes := x06 :: bstr "5"%string ++ [LF] ++ bstr "sayan"%string.
Example C30_example :
  is_packet (packet ex_q ex_p) ex_q ex_p /\
  q_run qc_reset (map (fun b => [b]) (packet ex_q ex_p)) = ([EvQuery ex_q ex_p], QRunning qc_reset) /\
  fst (q_run qc_reset [firstn 20 (packet ex_q ex_p)]) = [].
Proof.
  split; [apply packet_is_packet; vm_compute; reflexivity|]. split; vm_compute; reflexivity.
Qed.
Example C30_example_conversation :
  q_run qc_reset ([packet ex_q ex_p] ++ map (fun b => [b]) (packet [] [])) =
   ([EvQuery ex_q ex_p; EvQuery [] []], QRunning qc_reset).
Proof. vm_compute. reflexivity. Qed.

(* ------------------------------------------------------------------ *)
(** * C31: hostile query packets *)

(** The full statement is false: a window larger than the packet aborts the handler. *)
Theorem C31_no_crash_refuted : exists input, snd (q_run qc_reset [input]) = QStopCrash.
Proof. exists (bstr "S2"%string ++ [LF] ++ bstr "9"%string ++ [LF]). vm_compute. reflexivity. Qed.

(** Every packet whose declared query length exceeds its body crashes, however it is fragmented. *)
Theorem C31_oversized_window_always_crashes ds ws body chunks :
  all_digits ds -> all_digits ws -> ds <> [] -> ws <> [] ->
  horner 0 ds = len ws + 1 + len body -> len body < horner 0 ws -> horner 0 ws < two64 ->
  reads chunks (x53 :: ds ++ LF :: ws ++ LF :: body) ->
  q_run qc_reset chunks = ([], QStopCrash).
Proof.
  intros D1 D2 N1 N2 V1 V2 V3 (HN & HC & LT).
  set (k := {| p_ds := ds; p_ws := ws; p_body := body |}).
  assert (OK : pkt_ok k) by (unfold pkt_ok, pkt_bytes; cbn [k p_ds p_ws p_body]; auto 10).
  destruct chunks as [|ch chunks]; [discriminate|].
  destruct (q_run_packet k (ch :: chunks) OK HN [] qc_reset [] (qinv_reset k)) as [(NX & _)|(_ & E)].
  - discriminate.
  - cbn [app]. rewrite app_nil_r, HC. reflexivity.
  - congruence.
  - rewrite E. cbn [k p_ws p_body]. destruct (takeN (horner 0 ws) body) as [[a b]|] eqn:ET; [|reflexivity].
    apply takeN_inv in ET as [-> EL]. rewrite len_app in V2. lia.
Qed.

(** ... and that is the only way to crash it; every query executed lies exactly inside a packet
    received. Stated for any byte stream in any fragmentation: the reads since the last event form
    the packet. *)
Theorem C31_only_oversized_window_crashes_partial chunks :
  Forall (fun ch => ch <> []) chunks -> len (concat chunks) < two64 ->
  forall es f, q_run qc_reset chunks = (es, f) ->
  f <> QStopClosed /\
  (f = QStopCrash -> exists i j body w, complete_packet (concat (firstn j (skipn i chunks))) body w /\ len body < w) /\
  (forall q params, In (EvQuery q params) es ->
     exists i j, complete_packet (concat (firstn j (skipn i chunks))) (q ++ params) (len q)).
Proof.
  intros HN LT es f E.
  (* general form: B is what was read since the last reset, ending at position i + j *)
  assert (G : forall rest pre i B c es f, chunks = pre ++ rest -> qshape B c -> B = concat (skipn i pre) ->
     (i <= List.length pre)%nat -> q_run c rest = (es, f) ->
     f <> QStopClosed /\
     (f = QStopCrash -> exists i j body w, complete_packet (concat (firstn j (skipn i chunks))) body w /\ len body < w) /\
     (forall q params, In (EvQuery q params) es ->
        exists i j, complete_packet (concat (firstn j (skipn i chunks))) (q ++ params) (len q))).
  { induction rest as [|ch rest IH]; intros pre i B c es0 f0 EC SH EB Hi ER.
    - cbn in ER. injection ER as <- <-. split; [discriminate|]. split; [discriminate|]. intros q params [].
    - assert (Hch : ch <> []).
      { rewrite EC in HN. apply Forall_app in HN as [_ HN]. inversion HN; assumption. }
      assert (LB : len (B ++ ch) < two64).
      { rewrite EC, concat_app in LT. cbn [concat] in LT. rewrite !len_app in LT.
        rewrite <- (firstn_skipn i pre), concat_app, len_app, <- EB in LT. rewrite len_app. lia. }
      assert (WIN : concat (firstn (List.length pre - i + 1) (skipn i chunks)) = B ++ ch).
      { rewrite EC, skipn_app. replace (i - List.length pre)%nat with 0%nat by lia. cbn [skipn].
        rewrite firstn_app, skipn_length.
        replace (List.length pre - i + 1 - (List.length pre - i))%nat with 1%nat by lia.
        rewrite firstn_all2 by (rewrite skipn_length; lia).
        rewrite concat_app. cbn [firstn concat]. rewrite app_nil_r, EB. reflexivity. }
      pose proof (q_read_shape B c ch SH Hch LB) as RS. cbn [q_run] in ER.
      assert (EC' : chunks = (pre ++ [ch]) ++ rest) by (rewrite <- app_assoc; exact EC).
      destruct (q_read c ch) as [c1|[q0 p0|] c1| |].
      + apply (IH (pre ++ [ch]) i (B ++ ch) c1 es0 f0); auto.
        * rewrite skipn_app, concat_app. replace (i - List.length pre)%nat with 0%nat by lia.
          cbn [skipn concat]. rewrite app_nil_r, EB. reflexivity.
        * rewrite app_length. cbn. lia.
      + destruct RS as [CP ->]. destruct (q_run qc_reset rest) as [es1 f1] eqn:E1. injection ER as <- <-.
        destruct (IH (pre ++ [ch]) (List.length (pre ++ [ch])) [] qc_reset es1 f1) as (R1 & R2 & R3); auto.
        * apply qshape_reset.
        * rewrite skipn_all. reflexivity.
        * split; [assumption|]. split; [assumption|].
          intros q params [X|X]; [|auto]. injection X as <- <-.
          exists i, (List.length pre - i + 1)%nat. rewrite WIN. exact CP.
      + subst c1. destruct (q_run qc_reset rest) as [es1 f1] eqn:E1. injection ER as <- <-.
        destruct (IH (pre ++ [ch]) (List.length (pre ++ [ch])) [] qc_reset es1 f1) as (R1 & R2 & R3); auto.
        * apply qshape_reset.
        * rewrite skipn_all. reflexivity.
        * split; [assumption|]. split; [assumption|].
          intros q params [X|X]; [discriminate|auto].
      + contradiction.
      + injection ER as <- <-. split; [discriminate|]. split; [|intros q params []].
        intros _. destruct RS as (body & w & CP & LW).
        exists i, (List.length pre - i + 1)%nat, body, w. rewrite WIN. auto. }
  apply (G chunks [] O [] qc_reset es f); auto.
  apply qshape_reset.
Qed.

(** A packet that declares a total smaller than its own second field wedges the connection: no
    later byte sequence is ever answered. *)
Theorem C31_undersized_packet_wedges chunks :
  Forall (fun ch => ch <> []) chunks -> len (concat chunks) < two64 / 4 ->
  exists c, q_run qc_reset ((bstr "S0"%string ++ [LF] ++ bstr "0"%string ++ [LF]) :: chunks) = ([], QRunning c).
Proof.
  intros HN LT. cbn [q_run].
  set (c0 := {| qc_buf := bstr "S0"%string ++ [LF] ++ bstr "0"%string ++ [LF]; qc_cur := 5;
                qc_st := {| q_phase := QData; q_target := 3; q_size := 0; q_window := 0 |} |}).
  assert (E : q_read qc_reset (bstr "S0"%string ++ [LF] ++ bstr "0"%string ++ [LF]) = QWait c0)
    by (vm_compute; reflexivity).
  rewrite E.
  destruct (underfull_stuck chunks HN c0) as (c' & E' & _).
  - repeat split; cbn; lia.
  - rewrite len_app. change (len (qc_buf c0)) with 5.
    change (two64 / 4) with 4611686018427387904 in LT. unfold two64. lia.
  - eauto.
Qed.

Example C31_example :
  q_run qc_reset [packet ex_q ex_p; bstr "S3"%string; [LF] ++ bstr "7"%string; [LF] ++ bstr "q"%string]
   = ([EvQuery ex_q ex_p], QStopCrash).
Proof. vm_compute. reflexivity. Qed.

(* ------------------------------------------------------------------ *)
(** * C52: back-to-back queries *)

(** The loop completes a packet only if the buffer holds exactly that packet: as soon as one read
    carries the end of a packet together with the beginning of the next, nothing is ever answered
    again on this connection - neither that packet nor anything sent later. *)
Theorem C52_pipelined_queries_never_answered P q params before extra later :
  is_packet P q params -> extra <> [] ->
  Forall (fun ch => ch <> []) before -> Forall (fun ch => ch <> []) later ->
  forall tail, concat before ++ tail = P -> tail <> [] ->
  len (P ++ extra ++ concat later) < two64 ->
  exists c, q_run qc_reset (before ++ (tail ++ extra) :: later) = ([], QRunning c).
Proof.
  intros HP NE NB NL tail EP NT LT.
  assert (LTP : len P < two64) by (rewrite len_app in LT; lia).
  destruct (is_packet_ok P q params HP LTP) as (k & -> & OK & EB & EW).
  assert (ST : exists c, q_run qc_reset before = ([], QRunning c) /\ qinv k (concat before) c).
  { destruct before as [|ch before]; [exists qc_reset; split; [reflexivity|apply qinv_reset]|].
    destruct (q_run_packet k (ch :: before) OK NB [] qc_reset tail (qinv_reset k)) as [(NX & c' & E & I')|(EX & _)].
    - discriminate.
    - cbn [app]. symmetry. exact EP.
    - exists c'. split; [exact E|exact I'].
    - contradiction. }
  destruct ST as (c & ER & IV).
  assert (APP : forall a b c c', q_run c a = ([], QRunning c') -> q_run c (a ++ b) = q_run c' b).
  { induction a as [|x a IHa]; intros b c0 c' H.
    - cbn in *. injection H as <-. reflexivity.
    - cbn [q_run app] in *. destruct (q_read c0 x) as [c1|e c1| |]; try discriminate.
      + auto.
      + destruct (q_run c1 a). discriminate. }
  rewrite (APP _ _ _ _ ER). cbn [q_run]. clear APP ER.
  assert (LPE : len (pkt_bytes k ++ extra) < two64) by (rewrite !len_app in *; lia).
  assert (EQ : concat before ++ tail ++ extra = pkt_bytes k ++ extra) by (rewrite app_assoc, EP; reflexivity).
  destruct (over_resume k (concat before) c (tail ++ extra) extra OK NE LPE IV EQ) as (GT & st' & RS & PH & TG).
  pose proof IV as (HB & HCu & _).
  unfold q_read. destruct (tail ++ extra) as [|h t] eqn:ET.
  { destruct tail; [congruence|discriminate]. }
  rewrite <- ET in *. rewrite HB.
  destruct (N.ltb_spec (len (concat before ++ tail ++ extra)) (q_target (qc_st c))); [lia|].
  rewrite RS. rewrite EQ in *.
  set (c1 := {| qc_buf := pkt_bytes k ++ extra; qc_cur := _; qc_st := st' |}).
  destruct (overfull_stuck later NL c1) as (c' & E & _).
  - unfold overfull. subst c1. cbn [qc_st qc_buf qc_cur]. split; [exact PH|]. split; [lia|].
    rewrite TG. pose proof (pkt_len k). destruct extra as [|x extra]; [congruence|].
    rewrite len_app, len_cons. split; [|lia].
    rewrite !app_length. cbn [List.length]. unfold len in *. lia.
  - subst c1. cbn [qc_buf]. rewrite <- app_assoc. exact LT.
  - eauto.
Qed.

Theorem C52_back_to_back_refuted : exists p1 p2, is_packet p1 ex_q ex_p /\ is_packet p2 ex_q ex_p /\
  fst (q_run qc_reset [p1 ++ p2]) = [] /\ fst (q_run qc_reset [p1; p2]) = [EvQuery ex_q ex_p; EvQuery ex_q ex_p].
Proof.
  exists (packet ex_q ex_p), (packet ex_q ex_p).
  split; [apply packet_is_packet; vm_compute; reflexivity|].
  split; [apply packet_is_packet; vm_compute; reflexivity|]. split; vm_compute; reflexivity.
Qed.

(* ------------------------------------------------------------------ *)
(** * C32: responses *)

(** the results a statement can produce *)
Inductive result :=
| ResEmpty | ResNull | ResBool (b : bool) | ResError (code : N) | ResString (s : bytes)
| ResRow (cells : list cell) | ResRows (cols : N) (rows : list (list cell)).

Section C32.
  Variable ftoa : N -> bytes.

  (** bytes sent for a result *)
  Definition sent (r : result) : bytes :=
    match r with
    | ResEmpty => respond REmpty
    | ResNull => respond RNull
    | ResBool b => respond (RBool b)
    | ResError c => respond (RErr c)
    | ResString s => respond (string_resp s)
    | ResRow cells => respond (select_resp ftoa cells)
    | ResRows cols rows => respond (select_all_resp ftoa cols rows)
    end.

  (** what the client should see *)
  Definition seen (r : result) : vresp :=
    match r with
    | ResEmpty => WEmpty
    | ResNull => WNull
    | ResBool b => WBool b
    | ResError c => WErr c
    | ResString s => WStr s
    | ResRow cells => WRow (map (view ftoa) cells)
    | ResRows cols rows => WRows cols (map (map (view ftoa)) rows)
    end.

  (** sizes fit in 64 bits, error codes in one byte, every row has the announced columns *)
  Definition sendable (r : result) : Prop :=
    match r with
    | ResError c => c < 256
    | ResString s => len s < two64
    | ResRow cells => N.of_nat (List.length cells) < two64 /\ all_fit cells
    | ResRows cols rows => cols < two64 /\ N.of_nat (List.length rows) < two64 /\ Forall all_fit rows /\
        Forall (fun r => N.of_nat (List.length r) = cols) rows
    | _ => True
    end.
End C32.

(** A client that knows only the response format reads back exactly what was sent, and stops exactly
    at the end of the response, whatever bytes follow. [ftoa] is the float formatter of the standard
    library; only that it prints no line feed is used. *)
Theorem C32_responses_decode ftoa r rest :
  (forall w, ~ In LF (ftoa w)) -> sendable r ->
  client_response (sent ftoa r ++ rest) = Some (seen ftoa r, rest).
Proof.
  intros HF SD. destruct r as [ | |b|c|s|cells|cols rows]; cbn [sent seen sendable] in *.
  - reflexivity.
  - reflexivity.
  - destruct b; reflexivity.
  - unfold respond. cbn [app client_response]. change (b2n (n2b rt_error)) with 16. cbn [N.eqb Pos.eqb].
    rewrite !b2n_n2b. do 2 f_equal. f_equal.
    rewrite (N.mod_small c 256) by assumption. rewrite (N.div_small c 256) by assumption.
    change (0 mod 256) with 0. lia.
  - unfold string_resp, respond. cbn [app]. unfold client_response. change (b2n (n2b rt_string)) with 13.
    cbn [N.eqb Pos.eqb]. destruct (client_num (len s) (s ++ rest) SD) as [U1 U2].
    rewrite <- !app_assoc. cbn [app]. rewrite U1, U2, takeN_exact. reflexivity.
  - destruct SD as [SL SA]. unfold select_resp, respond. cbn [app]. unfold client_response.
    change (b2n (n2b rt_row)) with 17. cbn [N.eqb Pos.eqb].
    rewrite <- !app_assoc. cbn [app].
    destruct (client_num (N.of_nat (List.length cells)) (flat_map (enc_cell ftoa) cells ++ rest) SL) as [U1 U2].
    rewrite U1, U2. change (flat_map (enc_cell ftoa) cells) with (encs ftoa cells).
    rewrite (client_cells_spec ftoa HF) by (try assumption; rewrite app_length; lia). reflexivity.
  - destruct SD as (SC & SL & SA & SW). unfold select_all_resp, respond. cbn [app]. unfold client_response.
    change (b2n (n2b rt_multirow)) with 19. cbn [N.eqb Pos.eqb].
    rewrite <- !app_assoc. cbn [app].
    rewrite (proj1 (client_num (N.of_nat (List.length rows)) _ SL)), (proj2 (client_num _ [] SL)).
    rewrite <- !app_assoc. cbn [app].
    rewrite (proj1 (client_num cols _ SC)), (proj2 (client_num _ [] SC)).
    rewrite Nat2N.id.
    rewrite (client_rows_spec ftoa HF cols rows SA SW) by lia. reflexivity.
Qed.

(** Consequently a stream of responses has one reading only: no response is a proper prefix of
    another, and different results have different bytes. *)
Theorem C32_responses_unambiguous ftoa r1 r2 x y :
  (forall w, ~ In LF (ftoa w)) -> sendable r1 -> sendable r2 ->
  sent ftoa r1 ++ x = sent ftoa r2 ++ y -> seen ftoa r1 = seen ftoa r2 /\ x = y.
Proof.
  intros HF S1 S2 E. pose proof (C32_responses_decode ftoa r1 x HF S1) as D1.
  rewrite E, (C32_responses_decode ftoa r2 y HF S2) in D1. injection D1 as -> ->. auto.
Qed.

(** a concrete formatter and a nested multi-row result *)
Definition ex_rows : result := ResRows 3
  [[CStr (bstr "sayan"%string); CQw QS8 18446744073709551611; CList [CNull; CList [CBool true]; CBin [LF; x00]]];
   [CStr []; CNull; CQw QF64 7]].
Example C32_example_hyp :
  (forall w, ~ In LF ((fun _ : N => bstr "1.5"%string) w)) /\ sendable ex_rows.
Proof.
  split.
  - intros w [X|[X|[X|[]]]]; discriminate X.
  - assert (T : forall n m : N, (n <? m) = true -> n < m) by (intros n m; apply N.ltb_lt).
    unfold sendable, ex_rows. split; [apply T; vm_compute; reflexivity|].
    split; [apply T; vm_compute; reflexivity|]. split.
    + constructor; [|constructor; [|constructor]].
      * repeat (apply Forall_cons || apply Forall_nil); try (apply T; vm_compute; reflexivity).
        apply fits_list. split; [apply T; vm_compute; reflexivity|].
        repeat (apply Forall_cons || apply Forall_nil); try (apply T; vm_compute; reflexivity); try exact I.
        apply fits_list. split; [apply T; vm_compute; reflexivity|].
        repeat (apply Forall_cons || apply Forall_nil). exact I.
      * repeat (apply Forall_cons || apply Forall_nil); try (apply T; vm_compute; reflexivity); exact I.
    + repeat (apply Forall_cons || apply Forall_nil); reflexivity.
Qed.
Example C32_example :
  client_response (sent (fun _ => bstr "1.5"%string) ex_rows ++ [x12]) =
   Some (WRows 3 [[VStr (bstr "sayan"%string); VSInt 6 (-5); VList [VNull; VList [VBool true]; VBin [LF; x00]]];
                  [VStr []; VNull; VFloat 11 (bstr "1.5"%string)]], [x12]).
Proof. vm_compute. reflexivity. Qed.

(* ------------------------------------------------------------------ *)
(** * C33: printed integers *)

(** For each of the eight integer types and each value of the type, printing stays inside its
    buffer and yields the canonical decimal text; that text is unique for the number and
    belongs to no other. *)
Theorem C33_integers_printed_exactly t v : ity_range t v ->
  exists s, irep t v = Some s /\ int_text v s /\
    (forall s', int_text v s' -> s' = s) /\ (forall v', int_text v' s -> v' = v).
Proof.
  intros R. destruct (irep_spec t v R) as (s & E & T). exists s. split; [assumption|]. split; [assumption|].
  split; intros; [eapply int_text_unique|eapply int_text_inj]; eauto.
Qed.

Example C33_example :
  ity_range II64 (-9223372036854775808) /\
  irep II64 (-9223372036854775808) = Some (bstr "-9223372036854775808"%string) /\
  irep IU64 18446744073709551615 = Some (bstr "18446744073709551615"%string) /\
  irep II8 (-128) = Some (bstr "-128"%string) /\ irep IU32 10000 = Some (bstr "10000"%string) /\
  irep IU8 0 = Some (bstr "0"%string).
Proof. repeat split; vm_compute; congruence. Qed.

Print Assumptions C28_login_parsed_iff_hello_partial.
Print Assumptions C28_never_reads_beyond_the_hello.
Print Assumptions C28_answers_agree_partial.
Print Assumptions C28_same_decision_refuted.
Print Assumptions C29_no_crash_refuted.
Print Assumptions C29_panics_exactly_for_bad_headers_partial.
Print Assumptions C29_out_of_bounds_only_on_wrapping_sizes_partial.
Print Assumptions C53_single_fault_reported_partial.
Print Assumptions C53_reported_field_is_wrong_refuted.
Print Assumptions C30_packet_delivered_intact.
Print Assumptions C30_conversation_partial.
Print Assumptions C31_no_crash_refuted.
Print Assumptions C31_oversized_window_always_crashes.
Print Assumptions C31_only_oversized_window_crashes_partial.
Print Assumptions C31_undersized_packet_wedges.
Print Assumptions C52_pipelined_queries_never_answered.
Print Assumptions C52_back_to_back_refuted.
Print Assumptions C32_responses_decode.
Print Assumptions C32_responses_unambiguous.
Print Assumptions C33_integers_printed_exactly.
