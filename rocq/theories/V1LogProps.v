(** C83, C84 (system log): what the reader of the old system log does. *)
From Coq Require Import Strings.String List Arith NArith Bool Lia.
From Verif Require Import Bytes DataModel CodecModel CodecProofs CodecProps GnsCodecModel GnsCodecProofs GnsModel V1Model V1Spec V1LogProofs.
Import ListNotations.
Local Open Scope N_scope.

(** the catalogue's check value of CRC-32/ISO-HDLC *)
Example crc32i_check : crc32i (bstr "123456789") = 0xCBF43926.
Proof. vm_compute. reflexivity. Qed.

Lemma lops_run_fed {G} (upd : bytes -> G -> vupd G) l : forall g, lops_run G upd l g = fed upd (payloads l) g.
Proof.
  induction l as [|o l IH]; intros g; [reflexivity|]. cbn [lops_run payloads flat_map]. fold (payloads l).
  destruct o; cbn [lop_run app fed]; [destruct (upd p g)|..]; auto.
Qed.

(** A log that was shut down properly is read to its end, and exactly the events not marked as spoilt
    are applied, in order. For every buffer size, checksum function and adapter. *)
Theorem C83_log_read_exactly : forall crc32 cap (G : Type) (upd : bytes -> G -> vupd G) l g g',
  (0 < cap)%nat -> Forall (lop_ok crc32) l -> N.of_nat (length l) < two64 ->
  fed upd (payloads l) g = Some g' ->
  v_scroll crc32 cap G upd (closed_log crc32 l) g = VrOk (g', N.of_nat (length l)).
Proof.
  intros crc32 cap G upd l g g' CP W L U. rewrite <- lops_run_fed in U. unfold v_scroll.
  set (file := closed_log crc32 l). set (r0 := mk_v1r [] 0 0 false g).
  assert (FL : exists k, S (length file) = (length l + S k)%nat).
  { exists (length file - length l)%nat. unfold file, closed_log. rewrite app_length.
    pose proof (log_bytes_len crc32 cap CP l 0). lia. }
  destruct FL as [k ->].
  destruct (v_loop_ops crc32 cap CP G upd file l (S k) r0 (v_mark (N.of_nat (length l)) SRC_CLOSED) g') as (r & E & S1 & K1 & I1 & C1 & G1);
    try assumption; try reflexivity.
  { apply (init_ok cap CP). }
  rewrite E. cbn [r0 r_id] in I1. rewrite N.add_0_l in I1.
  rewrite v_loop_close; try assumption; [rewrite G1, I1; reflexivity | rewrite I1; assumption | rewrite I1; exact S1].
Qed.
Print Assumptions C83_log_read_exactly.

(** the adapter on an event as it was written *)
Lemma gns_upd_event utf8 e n n' : event_wf utf8 e -> ev_code e < 8 -> apply_event n e = Some n' ->
  v1_gns_upd utf8 (ev_payload e) n = VuOk n'.
Proof.
  intros W C A. unfold v1_gns_upd, ev_payload.
  assert (L : length (u16_le (ev_code e)) = 2%nat) by apply le_enc_length.
  rewrite (take_app_k 2 _ _ L). unfold u16_le. rewrite le_dec_enc by (change (256 ^ N.of_nat 2) with 65536; lia).
  apply N.ltb_lt in C. rewrite C. pose proof (event_roundtrip_body utf8 e [] W) as E. rewrite app_nil_r in E.
  rewrite E, A. reflexivity.
Qed.

Lemma fed_events utf8 es : forall n n', Forall (event_wf utf8) es -> Forall (fun e => ev_code e < 8) es ->
  replay n es = Some n' -> fed (v1_gns_upd utf8) (map ev_payload es) n = Some n'.
Proof.
  induction es as [|e es IH]; intros n n' W C R; [exact R|]. cbn [replay] in R.
  destruct (apply_event n e) as [n1|] eqn:A; [|congruence]. inversion W; subst. inversion C; subst.
  cbn [map fed]. rewrite (gns_upd_event utf8 e n n1); auto.
Qed.

(** the same for the events of the system log: the namespace is the one the events describe *)
Theorem C83_events_replayed : forall crc32 cap utf8 l es n,
  (0 < cap)%nat -> Forall (lop_ok crc32) l -> N.of_nat (length l) < two64 ->
  payloads l = map ev_payload es -> Forall (event_wf utf8) es -> Forall (fun e => ev_code e < 8) es ->
  replay ns_empty es = Some n ->
  v_scroll crc32 cap ns (v1_gns_upd utf8) (closed_log crc32 l) ns_empty = VrOk (n, N.of_nat (length l)).
Proof.
  intros crc32 cap utf8 l es n CP W L P WE C R. apply C83_log_read_exactly; try assumption.
  rewrite P. apply fed_events; assumption.
Qed.
Print Assumptions C83_events_replayed.

Definition xl_events : list gns_event :=
  [EvCreateSpace (bstr "myspace") (mk_space_layout 77 ex_dict);
   EvCreateModel (mk_sid 77 (bstr "myspace")) (bstr "mymodel") ex_layout].
(** two sessions, one spoilt event *)
Definition xl_log : list lop :=
  match map ev_payload xl_events with
  | [a; b] => [LEvent a; LSpoilt 5 b; LRestart; LEvent b]
  | _ => []
  end.

(** spoilt and repeated events, two sessions, a tiny buffer *)
Example C83_example : Forall (lop_ok crc32i) xl_log /\ payloads xl_log = map ev_payload xl_events /\
  Forall (event_wf (fun _ => true)) xl_events /\ Forall (fun e => ev_code e < 8) xl_events /\
  exists n, replay ns_empty xl_events = Some n /\
  v_scroll crc32i 50 ns (v1_gns_upd (fun _ => true)) (closed_log crc32i xl_log) ns_empty = VrOk (n, 4).
Proof.
  assert (A : Forall (lop_ok crc32i) xl_log).
  { assert (B : forallb (fun o => match o with
        | LEvent p => (len p <? two64) && (crc32i p <? 2 ^ 32)
        | LSpoilt c p => (len p <? two64) && (c <? 2 ^ 32) && negb (crc32i p =? c) | LRestart => true end) xl_log = true)
      by (vm_compute; reflexivity).
    rewrite forallb_forall in B. apply Forall_forall. intros o H. specialize (B o H).
    destruct o as [p | c p |]; cbn [lop_ok]; [| |exact I].
    - apply andb_true_iff in B as [B1 B2]. apply N.ltb_lt in B1, B2. auto.
    - apply andb_true_iff in B as [B B3]. apply andb_true_iff in B as [B1 B2]. apply N.ltb_lt in B1, B2.
      apply negb_true_iff, N.eqb_neq in B3. auto. }
  assert (HF : layout_wf (fun _ => true) ex_layout) by apply C03_example_wf.
  split; [exact A|]. split; [reflexivity|]. split.
  { repeat (apply Forall_cons || apply Forall_nil); cbn [event_wf];
    repeat first [ exact C02_example_wf | exact HF | split ]; try reflexivity. }
  split.
  { repeat constructor. }
  eexists. split; [vm_compute; reflexivity | vm_compute; reflexivity].
Qed.

(** Reading any file at all comes to an end: the loop never runs forever. *)
Theorem C83_reading_ends : forall crc32 cap (G : Type) upd file g,
  (0 < cap)%nat -> v_scroll crc32 cap G upd file g <> VrFuel.
Proof.
  intros crc32 cap G upd file g CP. apply (v_loop_fuel crc32 cap CP G upd file).
  - apply (init_ok cap CP).
  - unfold v_stream. cbn [r_buf r_in app skipn]. lia.
Qed.
Print Assumptions C83_reading_ends.

(** The reader has a branch for a write that failed before anything reached the disk: it moves back and
    looks for a recovery mark. It never works. After any history, a recovery mark in the place of a
    record makes the log unreadable, whatever number the mark carries (the expected one or one of the
    next 255), whether the log ends there or goes on with a later record. *)
Theorem C83_unwritten_event_never_recovered : forall crc32 cap (G : Type) (upd : bytes -> G -> vupd G) l g g' j rest,
  (0 < cap)%nat -> Forall (lop_ok crc32) l -> N.of_nat (length l) + 256 < two64 ->
  fed upd (payloads l) g = Some g' ->
  N.of_nat (length l) <= j < N.of_nat (length l) + 256 ->
  (rest = [] \/ exists id src c n rest', rest = enc_jm (mk_jm id src c n) ++ rest' /\
     N.of_nat (length l) < id < N.of_nat (length l) + 256 /\ src < two64 /\ c < 2 ^ 32 /\ n < two64) ->
  v_scroll crc32 cap G upd (log_bytes crc32 0 l ++ v_mark j SRC_RECOVERY ++ rest) g = VrErr.
Proof.
  intros crc32 cap G upd l g g' j rest CP W L U J R. rewrite <- lops_run_fed in U. unfold v_scroll.
  set (file := log_bytes crc32 0 l ++ v_mark j SRC_RECOVERY ++ rest). set (r0 := mk_v1r [] 0 0 false g).
  assert (FL : exists k, S (length file) = (length l + S k)%nat).
  { exists (length file - length l)%nat. unfold file. rewrite app_length. pose proof (log_bytes_len crc32 cap CP l 0). lia. }
  destruct FL as [k ->].
  destruct (v_loop_ops crc32 cap CP G upd file l (S k) r0 (v_mark j SRC_RECOVERY ++ rest) g') as (r & E & S1 & K1 & I1 & C1 & G1);
    try assumption; try reflexivity.
  { apply (init_ok cap CP). }
  { cbn [r0 r_id]. lia. }
  rewrite E. cbn [r0 r_id] in I1. rewrite N.add_0_l in I1. apply v_loop_err.
  - rewrite S1. intros X. apply app_eq_nil in X as [X _]. exact (jm_not_nil _ X).
  - apply (v_next_unwritten crc32 cap CP G upd file r j rest); try assumption; try (rewrite I1; lia); [lia|].
    destruct R as [-> | (id & src & c & n & rest' & -> & R1 & R2 & R3 & R4)]; [left; reflexivity|]. right.
    exists (mk_jm id src c n), rest'. rewrite I1. cbn [jm_id]. unfold jm_ok; cbn [jm_id jm_src jm_crc jm_len].
    unfold two64, two128 in *. repeat split; try assumption; lia.
Qed.
Print Assumptions C83_unwritten_event_never_recovered.

(** an event, then a mark with the expected number, then a proper shutdown: refused *)
Example C83_unwritten_example : forall p, p = bstr "payload" ->
  Forall (lop_ok crc32i) [LEvent p] /\ fed (fun p n => VuOk (n + len p)) (payloads [LEvent p]) 0 = Some 7 /\
  v_scroll crc32i 200 N (fun p n => VuOk (n + len p)) (closed_log crc32i [LEvent p]) 0 = VrOk (7, 1) /\
  v_scroll crc32i 200 N (fun p n => VuOk (n + len p))
    (log_bytes crc32i 0 [LEvent p] ++ v_mark 1 SRC_RECOVERY ++ v_mark 2 SRC_CLOSED) 0 = VrErr /\
  v_scroll crc32i 200 N (fun p n => VuOk (n + len p))
    (log_bytes crc32i 0 [LEvent p] ++ v_mark 2 SRC_RECOVERY ++ v_mark 2 SRC_CLOSED) 0 = VrErr.
Proof.
  intros p ->. split; [constructor; [split; vm_compute; reflexivity | constructor]|].
  split; [vm_compute; reflexivity|]. split; [vm_compute; reflexivity|]. split; vm_compute; reflexivity.
Qed.

(** The same, as a witness against "events marked as failed are skipped". *)
Theorem C83_failed_writes_skipped_refuted : exists l g', Forall (lop_ok crc32i) l /\
  fed (fun p n => VuOk (n + len p)) (payloads l) 0 = Some g' /\
  v_scroll crc32i 200 N (fun p n => VuOk (n + len p))
    (log_bytes crc32i 0 l ++ v_mark (N.of_nat (length l)) SRC_RECOVERY ++ v_mark (N.of_nat (length l) + 1) SRC_CLOSED) 0 = VrErr.
Proof.
  exists [LEvent (bstr "payload")], 7. split; [constructor; [split; vm_compute; reflexivity | constructor]|].
  split; vm_compute; reflexivity.
Qed.
Print Assumptions C83_failed_writes_skipped_refuted.

(** An event with an operation code of nine or more brings the process down, whatever follows it. *)
Theorem C83_unknown_operation_crashes : forall crc32 cap utf8 l es n opc body rest,
  (0 < cap)%nat -> Forall (lop_ok crc32) l -> N.of_nat (length l) + 1 < two64 ->
  payloads l = map ev_payload es -> Forall (event_wf utf8) es -> Forall (fun e => ev_code e < 8) es ->
  replay ns_empty es = Some n ->
  9 <= opc < 65536 -> lop_ok crc32 (LEvent (u16_le opc ++ body)) ->
  v_scroll crc32 cap ns (v1_gns_upd utf8)
    (log_bytes crc32 0 l ++ lop_bytes crc32 (N.of_nat (length l)) (LEvent (u16_le opc ++ body)) ++ rest) ns_empty = VrDie.
Proof.
  intros crc32 cap utf8 l es n opc body rest CP W L P WE C R O OK.
  assert (U : fed (v1_gns_upd utf8) (payloads l) ns_empty = Some n) by (rewrite P; apply fed_events; assumption).
  rewrite <- lops_run_fed in U. unfold v_scroll. set (p := u16_le opc ++ body) in *.
  set (file := log_bytes crc32 0 l ++ _). set (r0 := mk_v1r [] 0 0 false ns_empty).
  assert (FL : exists k, S (length file) = (length l + S k)%nat).
  { exists (length file - length l)%nat. unfold file. rewrite app_length. pose proof (log_bytes_len crc32 cap CP l 0). lia. }
  destruct FL as [k ->].
  destruct (v_loop_ops crc32 cap CP ns (v1_gns_upd utf8) file l (S k) r0 (lop_bytes crc32 (N.of_nat (length l)) (LEvent p) ++ rest) n)
    as (r & E & S1 & K1 & I1 & C1 & G1); try assumption; try reflexivity.
  { apply (init_ok cap CP). }
  { cbn [r0 r_id]. lia. }
  rewrite E. cbn [r0 r_id] in I1. rewrite N.add_0_l in I1. cbn [v_loop].
  assert (NX : v_next crc32 cap ns (v1_gns_upd utf8) file r = VrDie).
  { cbn [lop_bytes lop_ok] in *. destruct OK as [OK1 OK2]. unfold l_record in S1. rewrite <- app_assoc, <- I1 in S1.
    unfold v_next. destruct (v_read_app cap CP ns file 36 r _ _ K1 S1 (enc_jm_length _)) as (r1 & R1 & T1 & K2 & (Q1 & Q2 & Q3)).
    rewrite R1, dec_enc_jm by (unfold jm_ok; cbn; unfold two64, two128 in *; repeat split; try assumption; lia).
    cbn [jm_id jm_src jm_len jm_crc]. rewrite N.mod_small, N.eqb_refl by lia. cbn [negb].
    change (SRC_SERVER =? SRC_SERVER) with true. cbn match. rewrite T1, len_app.
    destruct (len p + len rest <? len p) eqn:LL; [apply N.ltb_lt in LL; lia|].
    destruct (v_read_app cap CP ns file (N.to_nat (len p)) r1 _ _ K2 T1 (eq_sym (Nat2N.id _))) as (r2 & R2 & T2 & K3 & (P1 & P2 & P3)).
    rewrite R2, N.eqb_refl. cbn [negb]. unfold v1_gns_upd, p.
    assert (L2 : length (u16_le opc) = 2%nat) by apply le_enc_length.
    rewrite (take_app_k 2 _ _ L2). unfold u16_le. rewrite le_dec_enc by (change (256 ^ N.of_nat 2) with 65536; lia).
    destruct (opc <? 8) eqn:O1; [apply N.ltb_lt in O1; lia|].
    destruct (opc =? 8) eqn:O2; [apply N.eqb_eq in O2; lia|]. reflexivity. }
  rewrite NX. destruct (v_stream ns file r) as [|x s] eqn:ES; [|reflexivity].
  exfalso. symmetry in S1. apply app_eq_nil in S1 as [S1 _].
  exact (lop_not_nil _ _ _ S1).
Qed.
Print Assumptions C83_unknown_operation_crashes.

(** witness: a log with such an event is not refused but crashes the server *)
Theorem C83_no_crash_refuted : exists file,
  v_scroll crc32i 200 ns (v1_gns_upd (fun _ => true)) file ns_empty = VrDie.
Proof. exists (closed_log crc32i [LEvent [x09; x00]]). vm_compute. reflexivity. Qed.
Print Assumptions C83_no_crash_refuted.

(** operation eight, in contrast, is refused *)
Example C83_unknown_operation_example : lop_ok crc32i (LEvent (u16_le 9 ++ bstr "x")) /\
  v_scroll crc32i 200 ns (v1_gns_upd (fun _ => true)) (closed_log crc32i [LEvent (u16_le 9 ++ bstr "x")]) ns_empty = VrDie /\
  v_scroll crc32i 200 ns (v1_gns_upd (fun _ => true)) (closed_log crc32i [LEvent (u16_le 8 ++ bstr "x")]) ns_empty = VrErr.
Proof. split; [split; vm_compute; reflexivity|]. split; vm_compute; reflexivity. Qed.

(** C84, system log: a log that lost its end is refused, or is the log of an earlier shutdown, provided
    that no event's payload contains the last twenty bytes of a recovery record. *)
Theorem C84_log_cut_partial : forall crc32 cap (G : Type) (upd : bytes -> G -> vupd G) l g g' p q,
  (0 < cap)%nat -> Forall (lop_ok crc32) l -> Forall lop_free l -> N.of_nat (length l) < two64 ->
  fed upd (payloads l) g = Some g' ->
  closed_log crc32 l = p ++ q -> q <> [] ->
  v_scroll crc32 cap G upd p g = VrErr \/
  exists l1 l2 g1, l = l1 ++ LRestart :: l2 /\ p = closed_log crc32 l1 /\
    fed upd (payloads l1) g = Some g1 /\ v_scroll crc32 cap G upd p g = VrOk (g1, N.of_nat (length l1)).
Proof.
  intros crc32 cap G upd l g g' p q CP W F L U E Q. rewrite <- lops_run_fed in U.
  unfold v_scroll. set (r0 := mk_v1r [] 0 0 false g).
  assert (S0 : v_stream G p r0 = p) by reflexivity.
  assert (ML : forall f r, rok0 G p r -> (length (v_stream G p r) <= f)%nat -> forall k, v_loop crc32 cap G upd p (f + k) r = v_loop crc32 cap G upd p f r).
  { induction f as [|f IH]; intros r K LL k.
    - destruct (v_stream G p r) as [|x s] eqn:ES; [|cbn [length] in LL; lia].
      cbn [plus]. destruct k; cbn [v_loop]; rewrite ES; reflexivity.
    - cbn [plus v_loop]. destruct (v_stream G p r) as [|x s] eqn:ES; [reflexivity|].
      destruct (v_next crc32 cap G upd p r) as [r' | | |] eqn:N; try reflexivity.
      destruct (v_next_pos crc32 cap CP G upd p r r' K N) as [K' L']. rewrite ES in L'. cbn [length] in *. apply IH; [assumption | lia]. }
  assert (FL : v_loop crc32 cap G upd p (S (length p)) r0 = v_loop crc32 cap G upd p (length l + S (length p)) r0).
  { rewrite (Nat.add_comm (length l)). symmetry. apply ML; [apply (init_ok cap CP) | rewrite S0; lia]. }
  destruct (v_loop_cut crc32 cap CP G upd p l (length p) r0 q g') as [V | (l1 & l2 & g1 & V1 & V2 & V3 & V4)]; try assumption; try reflexivity.
  { apply (init_ok cap CP). }
  - left. rewrite FL. exact V.
  - right. exists l1, l2, g1. rewrite lops_run_fed in V3. repeat split; try assumption. rewrite FL. exact V4.
Qed.
Print Assumptions C84_log_cut_partial.

Example C84_log_example : Forall lop_free [LEvent (bstr "abc"); LRestart; LEvent (bstr "de")] /\
  let f := closed_log crc32i [LEvent (bstr "abc"); LRestart; LEvent (bstr "de")] in
  v_scroll crc32i 200 N (fun p n => VuOk (n + len p)) f 0 = VrOk (5, 3) /\
  filter (fun k => match v_scroll crc32i 200 N (fun p n => VuOk (n + len p)) (firstn k f) 0 with VrErr => false | _ => true end)
    (seq 0 (length f)) = [75%nat] /\
  firstn 75 f = closed_log crc32i [LEvent (bstr "abc")].
Proof.
  split.
  { repeat constructor; intros a b E; apply (f_equal (@length _)) in E; rewrite !app_length in E; cbn in E; lia. }
  cbv zeta. split; [vm_compute; reflexivity|]. split; vm_compute; reflexivity.
Qed.

(** The bytes themselves: after 16 bytes of number, eight that tell a record (the top bit), a shutdown, a start (1) and an aborted record (2) apart; raw.rs:155-160. *)
Example C84_log_bytes :
  map (fun r => firstn 8 (skipn 16 r)) [closed_log crc32i [LEvent (bstr "abc")]; closed_log crc32i []; skipn 36 (closed_log crc32i [LRestart]); skipn 39 (closed_log crc32i [LSpoilt 0 (bstr "abc")])] =
  [[x00; x00; x00; x00; x00; x00; x00; x80]; [x00; x00; x00; x00; x00; x00; x00; x00]; [x01; x00; x00; x00; x00; x00; x00; x00]; [x02; x00; x00; x00; x00; x00; x00; x00]].
Proof. vm_compute. reflexivity. Qed.

(** Without that proviso it is false: a payload containing a recovery mark and a closing mark makes a
    shorter log that is accepted and has lost the event. *)
Theorem C84_log_cut_refuted : exists l p q, Forall (lop_ok crc32i) l /\ closed_log crc32i l = p ++ q /\ q <> [] /\
  (forall l1 l2, l = l1 ++ LRestart :: l2 -> p <> closed_log crc32i l1) /\
  v_scroll crc32i 200 N (fun p n => VuOk (n + len p)) (closed_log crc32i l) 0 = VrOk (75, 1) /\
  v_scroll crc32i 200 N (fun p n => VuOk (n + len p)) p 0 = VrOk (0, 1).
Proof.
  set (pl := v_mark 0 SRC_RECOVERY ++ v_mark 1 SRC_CLOSED ++ bstr "abc").
  exists [LEvent pl], (firstn 108 (closed_log crc32i [LEvent pl])), (skipn 108 (closed_log crc32i [LEvent pl])).
  split; [constructor; [split; vm_compute; reflexivity | constructor]|].
  split; [symmetry; apply firstn_skipn|]. split; [vm_compute; congruence|].
  split; [|split; vm_compute; reflexivity].
  intros l1 l2 E. destruct l1 as [|o [|o' l1]]; cbn [app] in E; discriminate E.
Qed.
Print Assumptions C84_log_cut_refuted.
