(** C71-C74: a model's data file byte for byte. *)
From Coq Require Import Strings.String List Arith NArith Lia Bool Permutation.
From Verif Require Import Bytes AMap DataModel CodecModel CodecProofs CrcModel CrcProofs WriterModel WriterProofs
  HeaderModel HeaderProofs JournalModel JournalProofs JournalLog JournalProps TypeModel GnsCodecModel GnsModel GnsProofs
  RowModel RowSpec RowProofs RowTable RowUpd RowAlter RowLemmas RowProps BatchModel BatchProofs BatchTable BatchProps
  BatchCodec Utf8 BatchLog.
Import ListNotations.
Local Open Scope N_scope.

(** ** C74: a batch's bytes say exactly what was written *)

(** Decoding accepts exactly the encodings of well-formed batches (key of the column's class, as many cells
    as columns, no more events than announced), each with its own checksum. *)
Theorem C74_batch_bytes_exact : forall utf8 m s l s' l',
  batch_dec utf8 m s l = Some (s', l') <->
  m mod 256 = 0 /\ exists e, batch_wf utf8 e /\ l = (enc_body e ++ u64_le (crc64 (enc_body e))) ++ l' /\ finish s e = Some s'.
Proof.
  intros utf8 m s l s' l'. split.
  - intros H. apply batch_dec_inv in H as (e & M & W & L & F). split; [exact M|]. exists e. auto.
  - intros (M & e & W & -> & F). pose proof (batch_dec_bytes utf8 s e l' W) as D. rewrite F in D.
    unfold batch_dec in *. rewrite M. change (0 mod 256) with 0 in D. exact D.
Qed.
Print Assumptions C74_batch_bytes_exact.

(** Two different batches never have the same bytes, nor is one's beginning the other's. *)
Theorem C74_batch_bytes_unambiguous : forall utf8 e1 e2 x y, batch_wf utf8 e1 -> batch_wf utf8 e2 ->
  (enc_body e1 ++ u64_le (crc64 (enc_body e1))) ++ x = (enc_body e2 ++ u64_le (crc64 (enc_body e2))) ++ y -> e1 = e2 /\ x = y.
Proof. intros utf8 e1 e2 x y W1 W2. apply (batch_bytes_prefix utf8 e1 e2 x y W1 W2). Qed.
Print Assumptions C74_batch_bytes_unambiguous.

(** an early exit (two of three changes), a deletion, null and list cells *)
Definition bx_batch : batch := mk_batch 3 TuStr 2 2
  [mk_bev DkInsert 5 (PkStr f_id) [CStr [xc3; xa9]; CList [CQw QU8 1; CBool true]]; mk_bev DkDelete 6 (PkStr f_n) []].
Example C74_example : batch_wf utf8_ok bx_batch /\
  dec_body utf8_ok (enc_body bx_batch ++ [x2a]) = ROk (bx_batch, [x2a]) /\ List.length (enc_body bx_batch) = 102%nat.
Proof.
  split; [|split; vm_compute; reflexivity].
  unfold batch_wf, bev_wf, key_wf. cbn. repeat split; try discriminate; repeat constructor; try (vm_compute; reflexivity).
Qed.

(** ** C71: restarting from the bytes *)

(** Full claim: whatever rows are written, whatever the flusher does, and however often the server is
    shut down and started, the data file of a model can be read again and yields exactly the batches
    flushed.
    Proved: for every history in which the disk accepts all writes: the machine that only has the file's
    bytes answers every operation, the next restart included, as the machine that keeps the batches
    themselves, and has the same memory; the size of the file is known. The hypothesis [batch_fits] says
    that the numbers have 64 bits and the strings of the batches are UTF-8.
    Missing: histories in which a string that is not UTF-8 reaches the file (refuted below) or in which the
    disk fails (C10, C26). *)
Theorem C71_restart_from_bytes_partial : forall utf8 cap farith order b sp hdr lay h s,
  (forall l, Permutation (order l) l) -> hdr_ok b sp hdr -> 0 < cap -> lay_ok lay ->
  bhist farith order (bst_new lay) h s -> Forall (fun e => healthy (fst e)) h ->
  Forall (batch_fits utf8) (b_file s) -> data_size h (b_file s) + 64 < two64 ->
  exists d, dhist utf8 cap farith order b sp (dst_new lay hdr) h d /\
    d_m d = b_m s /\ d_tasks d = b_tasks s /\ d_fl d = b_fl s /\
    len (w_file (j_w (d_j d))) = data_size h (b_file s) /\
    forall s' r, bstep farith order s BRestart = (s', r) ->
      exists d', dstep utf8 cap farith order b sp d BRestart = (d', r) /\
        d_m d' = b_m s' /\ d_tasks d' = b_tasks s' /\ d_fl d' = b_fl s'.
Proof.
  intros utf8 cap farith order b sp hdr lay h s OP HH CP LO H HE FT SZ.
  destruct (dlog_of farith order lay h s H HE) as [ops D].
  destruct (simulate utf8 cap farith order OP b sp hdr HH CP lay LO h s ops D FT ltac:(lia)) as (d & DH & (E1 & E2 & E3) & J).
  exists d. split; [exact DH|]. split; [exact E1|]. split; [exact E2|]. split; [exact E3|]. split.
  - destruct (dlog_inv cap farith order OP CP lay LO _ _ _ D) as (_ & _ & SE). destruct J as (_ & _ & F & _). rewrite F. unfold live_file.
    rewrite len_app. assert (len hdr = 64) by (unfold len; rewrite (proj1 HH); reflexivity). lia.
  - intros s' r E.
    destruct (restart_step utf8 cap farith order OP b sp hdr HH CP lay LO h s ops d s' r D (conj E1 (conj E2 E3)) J FT SZ E)
      as (d' & ED & (A1 & A2 & A3) & _). exists d'. auto.
Qed.
Print Assumptions C71_restart_from_bytes_partial.

(** What a user sees of it (with C24): after a restart from the bytes, every SELECT of a key without a
    queued change answers as before. *)
Theorem C71_select_after_restart_partial : forall utf8 cap farith order b sp hdr lay h s,
  (forall l, Permutation (order l) l) -> hdr_ok b sp hdr -> 0 < cap -> lay_ok lay ->
  calm_hist farith order lay h s ->
  Forall (fun e => match fst e with BStmt (RAlter _ _) => False | _ => True end) h -> b_fl s = None ->
  Forall (batch_fits utf8) (b_file s) -> data_size h (b_file s) + 64 < two64 ->
  exists d d', dhist utf8 cap farith order b sp (dst_new lay hdr) h d /\ d_m d = b_m s /\
    dstep utf8 cap farith order b sp d BRestart = (d', BoDone) /\
    forall w cols k, asked lay w = Some k -> ~ queued s k ->
      snd (rstep farith order (d_m d') (RSelect w cols)) = snd (rstep farith order (d_m d) (RSelect w cols)).
Proof.
  intros utf8 cap farith order b sp hdr lay h s OP HH CP LO H NA NF FT SZ.
  assert (HB : bhist farith order (bst_new lay) h s /\ Forall (fun e => healthy (fst e)) h).
  { clear NA NF FT SZ. induction H as [|h s o s' r H IH HS C N1 N2]; [split; constructor|]. destruct IH as [IH IF].
    pose proof (calm_binv farith order OP _ _ _ LO H) as B. pose proof (no_panic farith order s o s' r B HS C) as NP.
    split; [econstructor; eauto|]. apply Forall_app. split; [exact IF|]. constructor; [|constructor]. cbn [fst].
    destruct o as [q| |i|w|w| |]; cbn [healthy calm] in *; auto. destruct q; cbn [stmt_ok]; auto. }
  destruct HB as [HB HE].
  destruct (C71_restart_from_bytes_partial utf8 cap farith order b sp hdr lay h s OP HH CP LO HB HE FT SZ) as (d & DH & E1 & _ & _ & _ & RS).
  destruct (C24_reload_partial farith order OP lay h s LO H NA NF) as (s' & ES & SEL).
  destruct (RS s' BoDone ES) as (d' & ED & A1 & _). exists d, d'. split; [exact DH|]. split; [exact E1|]. split; [exact ED|].
  intros w cols k A Q. rewrite A1, E1. apply (SEL w cols k A Q).
Qed.
Print Assumptions C71_select_after_restart_partial.

Definition dx_hdr : bytes := enc_header jx_build spec_model 1700000000 (repeat Byte.x00 8).
Lemma dx_hdr_ok : hdr_ok jx_build spec_model dx_hdr.
Proof. split; [reflexivity|]. exists (new_header jx_build spec_model 1700000000 (repeat Byte.x00 8)). vm_compute. reflexivity. Qed.

(** running the byte machine *)
Definition dstepx := dstep utf8_ok 8192 noarith idorder jx_build spec_model.
Fixpoint drun (d : dst) (h : list (bop * bout)) (ops : list bop) : dst * list (bop * bout) :=
  match ops with [] => (d, h) | o :: ops' => let '(d1, r) := dstepx d o in drun d1 (h ++ [(o, r)]) ops' end.
Lemma drun_hist d0 ops : forall d h, dhist utf8_ok 8192 noarith idorder jx_build spec_model d0 h d ->
  forallb (fun e => okb (snd e)) (snd (drun d h ops)) = true ->
  dhist utf8_ok 8192 noarith idorder jx_build spec_model d0 (snd (drun d h ops)) (fst (drun d h ops)).
Proof.
  induction ops as [|o ops IH]; intros d h H F; cbn [drun] in *; [exact H|].
  destruct (dstepx d o) as [d1 r] eqn:E. apply IH; auto.
  assert (X : okb r = true).
  { assert (G : forall ops d h, exists t, snd (drun d h ops) = h ++ t).
    { clear. induction ops as [|o ops IH]; intros d h; cbn [drun]; [exists []; rewrite app_nil_r; reflexivity|].
      destruct (dstepx d o) as [d1 r]. destruct (IH d1 (h ++ [(o, r)])) as [t ET]. rewrite ET, <- app_assoc. eauto. }
    destruct (G ops d1 (h ++ [(o, r)])) as [t ET]. rewrite ET in F. rewrite !forallb_app in F.
    apply andb_true_iff in F as [F _]. apply andb_true_iff in F as [_ F]. cbn in F. apply andb_true_iff in F as [F _]. exact F. }
  apply okb_ok in X as (X1 & X2 & X3). econstructor; eauto.
Qed.

Definition healthyb (o : bop) : bool := match o with BStmt q => stmt_okb q | BStep WoOk | BEnd WoOk => true | BStep _ | BEnd _ => false | _ => true end.
Lemma healthyb_ok (h : list (bop * bout)) : forallb (fun e => healthyb (fst e)) h = true -> Forall (fun e => healthy (fst e)) h.
Proof.
  rewrite forallb_forall, Forall_forall. intros H e I. specialize (H e I). destruct (fst e) as [q| |i|w|w| |]; cbn in *; auto.
  - pose proof (stmt_okb_ok [(q, RoOk)]) as X. cbn [forallb fst] in X. rewrite H in X. specialize (X eq_refl). inversion X; auto.
  - destruct w; congruence.
  - destruct w; congruence.
Qed.

Definition flatb (c : cell) : bool :=
  match c with CNull | CBool _ => true | CQw _ w => w <? two64 | CBin b => len b <? two64 | CStr b => (len b <? two64) && utf8_ok b | CList _ => false end.
Definition cellb (c : cell) : bool := match c with CList l => (N.of_nat (List.length l) <? two64) && forallb flatb l | _ => flatb c end.
Lemma flatb_ok c : flatb c = true -> cell_wf utf8_ok c.
Proof. destruct c; cbn; intros D; try discriminate D; try rewrite andb_true_iff in D; rewrite ?N.ltb_lt in D; constructor; tauto. Qed.
Lemma cellb_ok c : cellb c = true -> cell_wf utf8_ok c.
Proof.
  destruct c as [|b|q w|b|b|l]; try (apply flatb_ok). cbn [cellb]. rewrite andb_true_iff, N.ltb_lt, forallb_forall. intros [A B].
  constructor; auto. apply Forall_forall. intros x X. apply flatb_ok. auto.
Qed.
Definition keyb (k : pkey) : bool :=
  match k with PkUInt w | PkSInt w => w <? two64 | PkBin b => len b <? two64 | PkStr b => (len b <? two64) && utf8_ok b | PkNull => true end.
Definition fitsb (e : batch) : bool :=
  (ba_want e <? two64) && (ba_schema e <? two64) && (ba_cols e <? two64) &&
  forallb (fun x => (be_txn x <? two64) && keyb (be_key x) && forallb cellb (be_cells x)) (ba_evs e).
Lemma fitsb_ok l : forallb fitsb l = true -> Forall (batch_fits utf8_ok) l.
Proof.
  rewrite forallb_forall, Forall_forall. intros H e I. specialize (H e I). unfold fitsb in H. rewrite !andb_true_iff, !N.ltb_lt in H.
  destruct H as (((A & B) & C) & D). split; [exact A|]. split; [exact B|]. split; [exact C|].
  rewrite forallb_forall in D. apply Forall_forall. intros x X. specialize (D x X). rewrite !andb_true_iff, N.ltb_lt in D. destruct D as ((D1 & D2) & D3).
  split; [exact D1|]. split.
  - destruct (be_key x); cbn in *; try rewrite andb_true_iff in D2; rewrite ?N.ltb_lt in D2; auto.
  - rewrite forallb_forall in D3. apply Forall_forall. intros c CI. specialize (D3 c CI). apply cellb_ok. exact D3.
Qed.

(** the history of C24's example in bytes *)
Example C71_example :
  let h := snd (drun (dst_new ex_lay dx_hdr) [] ex_ops) in
  let d := fst (drun (dst_new ex_lay dx_hdr) [] ex_ops) in
  bhist noarith idorder (bst_new ex_lay) h (final ex_lay nock ex_ops) /\ Forall (fun e => healthy (fst e)) h /\
  Forall (batch_fits utf8_ok) (b_file (final ex_lay nock ex_ops)) /\
  data_size h (b_file (final ex_lay nock ex_ops)) = 648 /\ len (w_file (j_w (d_j d))) = 648 /\
  snd (dstepx d BRestart) = BoDone /\
  snd (rstep noarith idorder (d_m (fst (dstepx d BRestart))) (RSelect (at_key 2) (Some [f_n]))) = RoRow [CQw QU8 23].
Proof.
  cbv zeta. split.
  { assert (E : snd (drun (dst_new ex_lay dx_hdr) [] ex_ops) = outs ex_lay nock ex_ops) by (vm_compute; reflexivity). rewrite E.
    apply final_hist. vm_compute. discriminate. }
  split; [apply healthyb_ok; vm_compute; reflexivity|].
  split; [apply fitsb_ok; vm_compute; reflexivity|].
  vm_all.
Qed.

(** The full claim is false: a binary value of a removed column becomes a string of another column with the
    same name (the off-by-one of C22), an append to it makes a string that is not UTF-8 of it, the flush
    writes it, and no restart can read the file any more. *)
Definition lx : layout := mk_layout 7 f_id (qsel_tsel QU64)
  [(f_id, mk_field false [qsel_tsel QU64]); (f_s, mk_field false [TsBin])].
Definition lx_ops : list bop :=
  [BStmt (RInsert (InsTuple [CQw QU64 1; CBin [xff]]));
   BStmt (RAlter (AkRemove [f_s]) true);
   BStmt (RAlter (AkAdd [mk_ef f_s [mk_ls (bstr "string"%string) []] []]) true);
   BStmt (RUpdate (at_key 1) [mk_as f_s AAdd (LStr (bstr "a"%string))])] ++ flush_all 2.
Theorem C71_unreadable_refuted : exists h d, lay_ok lx /\ hdr_ok jx_build spec_model dx_hdr /\
  dhist utf8_ok 8192 noarith idorder jx_build spec_model (dst_new lx dx_hdr) h d /\
  Forall (fun e => healthy (fst e)) h /\ Forall (fun e => match fst e with BStmt _ => snd e = BoStmt RoOk | _ => snd e = BoDone end) h /\
  m_queue (d_m d) = [] /\ d_fl d = None /\
  snd (dstepx d BRestart) = BoPanic /\
  (* every file that begins with the same flushed bytes is lost *)
  (forall g, data_open utf8_ok jx_build spec_model (closed_bytes d) g = JErr).
Proof.
  exists (snd (drun (dst_new lx dx_hdr) [] lx_ops)), (fst (drun (dst_new lx dx_hdr) [] lx_ops)).
  split. { split; [|split]; [cbn; repeat constructor; cbn; intros H; repeat (destruct H as [H|H]; [discriminate|]); contradiction|repeat constructor; discriminate|].
    eexists. split; [reflexivity|]. split; reflexivity. }
  split; [apply dx_hdr_ok|]. split; [apply drun_hist; [constructor|vm_compute; reflexivity]|].
  split; [apply healthyb_ok; vm_compute; reflexivity|].
  split; [vm_compute; repeat constructor|].
  split; [vm_compute; reflexivity|]. split; [vm_compute; reflexivity|]. split; [vm_compute; reflexivity|].
  intros g. vm_compute. reflexivity.
Qed.
Print Assumptions C71_unreadable_refuted.

Lemma dhist_det utf8 cap farith order b sp d0 h d : dhist utf8 cap farith order b sp d0 h d ->
  forall d', dhist utf8 cap farith order b sp d0 h d' -> d = d'.
Proof.
  induction 1 as [x|x h d1 o d2 r H IH E N1 N2 N3]; intros d' DH.
  - remember [] as h0 eqn:EH. destruct DH as [|x' h' d1' o' d2' r' H' E' M1 M2 M3]; [reflexivity|]. destruct h'; discriminate EH.
  - remember (h ++ [(o, r)]) as h0 eqn:EH. destruct DH as [|x' h' d1' o' d2' r' H' E' M1 M2 M3]; [destruct h; discriminate EH|].
    apply app_inj_tail in EH as [-> X]. injection X as -> ->. specialize (IH _ H'). congruence.
Qed.

(** ** C72: a data file cut at any byte is refused, or is the file of an earlier clean shutdown *)
Theorem C72_truncated_data_file_never_misread : forall utf8 cap farith order b sp hdr lay h s d p q g0 g jr,
  (forall l, Permutation (order l) l) -> hdr_ok b sp hdr -> 0 < cap -> lay_ok lay ->
  bhist farith order (bst_new lay) h s -> Forall (fun e => healthy (fst e)) h ->
  Forall (batch_fits utf8) (b_file s) -> data_size h (b_file s) < two64 ->
  dhist utf8 cap farith order b sp (dst_new lay hdr) h d ->
  w_file (j_w (d_j d)) = p ++ q ->
  data_open utf8 b sp p g0 = JOk (g, jr) ->
  exists h1 h2 d1 s1, h = h1 ++ (BRestart, BoDone) :: h2 /\
    dhist utf8 cap farith order b sp (dst_new lay hdr) h1 d1 /\ bhist farith order (bst_new lay) h1 s1 /\
    p = closed_bytes d1 /\ apply_batches g0 (b_file s1) = Some g.
Proof.
  intros utf8 cap farith order b sp hdr lay h s d p q g0 g jr OP HH CP LO H HE FT SZ DH EP EO.
  destruct (dlog_of farith order lay h s H HE) as [ops D].
  destruct (simulate utf8 cap farith order OP b sp hdr HH CP lay LO h s ops D FT SZ) as (d0 & DH0 & SA & J).
  pose proof (dhist_det _ _ _ _ _ _ _ _ _ DH0 _ DH) as DET.
  subst d0. destruct (dlog_inv cap farith order OP CP lay LO _ _ _ D) as (V & EV & SE).
  destruct J as (_ & _ & F & _). rewrite F in EP. unfold live_file in EP.
  assert (A : Forall (op_ok batch (batch_wf utf8)) ops).
  { apply ok_events. rewrite EV. rewrite Forall_forall in *. intros x I. apply shape_wf; auto. pose proof (si_file _ V) as SF. rewrite Forall_forall in SF. auto. }
  unfold data_open, j_open in EO. destruct (split_header b sp p) as [body|] eqn:SH; [|discriminate].
  assert (HB : p = hdr ++ body).
  { unfold split_header in SH. destruct (take header_size p) as [[hd bd]|] eqn:T; [|discriminate].
    destruct (open_header b sp hd); try discriminate. injection SH as <-.
    apply take_some in T as (-> & L). rewrite <- app_assoc in EP.
    apply app_inj_len in EP as [-> _]; auto. rewrite L. apply HH. }
  subst p. rewrite <- app_assoc in EP. apply app_inv_head in EP. rewrite scroll_scan in EO.
  destruct (scan mst (batch_dec utf8) (rd_of mst js0 body g0)) as [r| |] eqn:SC; try discriminate. injection EO as Hg _.
  pose proof (scan_prefix mst batch (fun _ => 0) (batch_dec utf8) batch_bytes (fun e g => finish g e) (batch_wf utf8)
    ltac:(reflexivity) (fun e g sfx W => batch_dec_bytes utf8 g e sfx W) (fun e g p q W => batch_dec_cut utf8 g e p q W) (batch_dec_suffix utf8)
    ops js0 g0 [] body q r js0_wf A) as SP.
  assert (Z : s_off js0 + len (ops_bytes batch (fun _ => 0) batch_bytes js0 ops ++ []) < two64) by (rewrite app_nil_r; unfold js0 at 1; cbn [s_off]; lia).
  specialize (SP Z (or_introl eq_refl)). rewrite app_nil_r in SP. specialize (SP EP SC).
  destruct SP as (ops1 & ops2 & g1 & HB & [Hops|[_ []]] & HR & Hg1 & _); [|reflexivity].
  destruct (dlog_split cap farith order OP CP lay LO _ _ _ D _ _ Hops) as (h1 & h2 & s1 & EH & D1 & t & ET).
  destruct (dlog_inv cap farith order OP CP lay LO _ _ _ D1) as (V1 & EV1 & SE1).
  assert (S1 : data_size h1 (b_file s1) <= data_size h (b_file s)).
  { rewrite EH, ET. unfold data_size. rewrite filter_app, app_length, fold_right_app.
    assert (M : forall (l : list batch) n, fold_right (fun e n => 24 + len (batch_bytes e) + n) 0 l <= fold_right (fun e n => 24 + len (batch_bytes e) + n) n l).
    { induction l as [|x l IH]; intros n; cbn [fold_right]; [lia|]. specialize (IH n). lia. }
    specialize (M (b_file s1) (fold_right (fun e n => 24 + len (batch_bytes e) + n) 0 t)). lia. }
  rewrite ET in FT. apply Forall_app in FT as [FT1 _].
  destruct (simulate utf8 cap farith order OP b sp hdr HH CP lay LO h1 s1 ops1 D1 FT1 ltac:(lia)) as (d1 & DH1 & SA1 & J1).
  exists h1, h2, d1, s1. split; [exact EH|]. split; [exact DH1|]. split; [apply (dlog_hist farith order lay _ _ _ D1)|]. split.
  - unfold closed_bytes. destruct (close_ok cap batch (fun _ => 0) batch_bytes _ _ _ J1) as (j1 & EC & FC). rewrite EC. cbn [fst]. rewrite FC.
    unfold closed_file. rewrite HB. reflexivity.
  - rewrite replay_apply_batches, EV1 in HR. congruence.
Qed.
Print Assumptions C72_truncated_data_file_never_misread.

(** the example's file cut after its first clean shutdown, and elsewhere *)
Example C72_example :
  let d := fst (drun (dst_new ex_lay dx_hdr) [] ex_ops) in
  let f := w_file (j_w (d_j d)) in
  let g0 := reload_base (d_m d) in
  let ok n := match data_open utf8_ok jx_build spec_model (firstn n f) g0 with JOk _ => true | _ => false end in
  map ok [0; 64; 400; 456; 457; 458; 521; 600; 648]%nat = [false; false; false; false; true; false; false; false; false].
Proof. vm_compute. reflexivity. Qed.

(** ** C73: damage to at most 8 consecutive bytes of a cleanly closed data file is noticed *)
Theorem C73_damage_within_8_bytes_detected : forall utf8 cap farith order b sp hdr lay h s d p x y q g0 r,
  (forall l, Permutation (order l) l) -> hdr_ok b sp hdr -> 0 < cap -> lay_ok lay ->
  bhist farith order (bst_new lay) h s -> Forall (fun e => healthy (fst e)) h ->
  Forall (batch_fits utf8) (b_file s) -> data_size h (b_file s) + 64 < two64 ->
  dhist utf8 cap farith order b sp (dst_new lay hdr) h d ->
  closed_bytes d = p ++ x ++ q -> (64 <= List.length p)%nat ->
  List.length y = List.length x -> (List.length x <= 8)%nat -> x <> y ->
  data_open utf8 b sp (p ++ y ++ q) g0 <> JOk r.
Proof.
  intros utf8 cap farith order b sp hdr lay h s d p x y q g0 r OP HH CP LO H HE FT SZ DH EP LP LY L8 NE EO.
  destruct (dlog_of farith order lay h s H HE) as [ops D].
  destruct (simulate utf8 cap farith order OP b sp hdr HH CP lay LO h s ops D FT ltac:(lia)) as (d0 & DH0 & SA & J).
  pose proof (dhist_det _ _ _ _ _ _ _ _ _ DH0 _ DH) as DET.
  subst d0. destruct (dlog_inv cap farith order OP CP lay LO _ _ _ D) as (V & EV & SE).
  unfold closed_bytes in EP. destruct (close_ok cap batch (fun _ => 0) batch_bytes _ _ _ J) as (j1 & EC & FC). rewrite EC in EP. cbn [fst] in EP.
  rewrite FC in EP. unfold closed_file in EP.
  apply app_eq_split in EP as (p1 & -> & HB); [|pose proof (proj1 HH); lia].
  unfold data_open, j_open in EO. rewrite <- app_assoc, split_header_app in EO by exact HH. rewrite scroll_scan in EO.
  destruct (scan _ _ _) as [r1| |] eqn:SC; try discriminate.
  assert (A : Forall (op_ok batch (batch_wf utf8)) ops).
  { apply ok_events. rewrite EV. rewrite Forall_forall in *. intros z I. apply shape_wf; auto. pose proof (si_file _ V) as SF. rewrite Forall_forall in SF. auto. }
  revert SC. apply (burst_detected mst batch (fun _ => 0) (batch_dec utf8) batch_bytes (fun e g => finish g e) (batch_wf utf8)
    ltac:(reflexivity) (fun e g sfx W => batch_dec_bytes utf8 g e sfx W) (batch_dec_suffix utf8) ops g0 p1 x y q r1); auto.
  lia.
Qed.
Print Assumptions C73_damage_within_8_bytes_detected.

Example C73_example :
  let d := fst (drun (dst_new ex_lay dx_hdr) [] ex_ops) in
  let f := closed_bytes d in
  let g0 := reload_base (d_m d) in
  let ok n := match data_open utf8_ok jx_build spec_model (firstn n f ++ [xee] ++ skipn (S n) f) g0 with JOk _ => true | _ => false end in
  match data_open utf8_ok jx_build spec_model f g0 with JOk (m, _) => Nat.eqb (List.length (m_idx m)) 2 | _ => false end = true /\
  map ok [64; 90; 200; 300; 457; 521; 647; 711]%nat = [false; false; false; false; false; false; false; false].
Proof. split; vm_compute; reflexivity. Qed.
