(** Property theorems: the journal (C06-C10, C51). *)
From Coq Require Import Strings.String List Arith NArith Lia Bool.
From Verif Require Import Bytes CodecProofs CrcModel CrcProofs WriterModel WriterProofs
  HeaderModel HeaderProofs JournalModel JournalProofs JournalLog.
Import ListNotations.
Local Open Scope N_scope.

(** ** C06: opening a journal after any number of clean sessions replays exactly the committed
    events, in order. [disp] is whatever replaying an event does; the second theorem takes the
    [disp] that records what it is given. *)
Theorem C06_clean_reopen_replays_history : forall cap nkinds (G : Type) (disp : N -> bytes -> G -> option G)
    b sp hdr g0 ss g,
  nkinds <= 256 -> 0 < cap -> hdr_ok b sp hdr -> ss <> [] ->
  Forall (Forall (ev_wf nkinds)) ss -> life_size ss < two64 ->
  apply_events G disp (concat ss) g0 = Some g ->
  exists file j, life cap nkinds G disp b sp hdr g0 ss = Some (Some file) /\
    log_open nkinds G disp b sp [] file g0 = JOk (g, (j, WOk)).
Proof.
  intros cap nkinds G disp b sp hdr g0 ss g Hn Hc Hh Hss A S R.
  exists (closed_file elev fst el_abytes hdr (sess_ops ss)).
  rewrite (life_ok cap nkinds G disp Hn Hc b sp hdr g0 Hh ss g) by auto.
  destruct ss as [|s ss]; [congruence|].
  destruct (open_ok cap G elev fst (el_dec nkinds disp) el_abytes (el_adisp G disp) (ev_wf nkinds)
              (el_meta_lt _ Hn) (el_dec_bytes _ _ _ Hn) (el_dec_suffix _ _ _)
              b sp hdr (sess_ops (s :: ss)) g0 g) as (j & E & J); auto using ok_sess.
  - rewrite (cfile_len _ _ Hn Hc b sp hdr Hh). pose proof (size_sess (s :: ss)) as Z. rewrite <- Z in S by discriminate. lia.
  - rewrite events_sess, replay_apply. auto.
  - exists j. split; auto.
Qed.
Print Assumptions C06_clean_reopen_replays_history.

(** records the events in the order they are replayed *)
Definition collect (k : N) (pl : bytes) (g : list elev) : option (list elev) := Some (g ++ [(k, pl)]).

Lemma apply_collect evs : forall g, apply_events _ collect evs g = Some (g ++ evs).
Proof.
  induction evs as [|[k pl] evs IH]; intros g; cbn. { rewrite app_nil_r; auto. }
  rewrite IH, <- app_assoc. reflexivity.
Qed.

Theorem C06_exactly_the_committed_events : forall cap nkinds b sp hdr ss,
  nkinds <= 256 -> 0 < cap -> hdr_ok b sp hdr -> ss <> [] ->
  Forall (Forall (ev_wf nkinds)) ss -> life_size ss < two64 ->
  exists file j, life cap nkinds _ collect b sp hdr [] ss = Some (Some file) /\
    log_open nkinds _ collect b sp [] file [] = JOk (concat ss, (j, WOk)).
Proof.
  intros. apply C06_clean_reopen_replays_history; auto. rewrite apply_collect. reflexivity.
Qed.
Print Assumptions C06_exactly_the_committed_events.

(** ** C07: a journal cut at any byte is refused, or was cut exactly at an earlier clean close and
    replays exactly the events up to it. *)
Theorem C07_truncated_journal_never_misread : forall cap nkinds (G : Type) (disp : N -> bytes -> G -> option G)
    b sp hdr g0 ss evs g file p q env g' jr,
  nkinds <= 256 -> 0 < cap -> hdr_ok b sp hdr ->
  Forall (Forall (ev_wf nkinds)) ss -> Forall (ev_wf nkinds) evs -> life_size (ss ++ [evs]) < two64 ->
  apply_events G disp (concat ss) g0 = Some g ->
  in_progress cap nkinds G disp b sp hdr g0 ss evs = Some file ->
  file = p ++ q ->
  log_open nkinds G disp b sp env p g0 = JOk (g', jr) ->
  exists ss1 ss2, ss = ss1 ++ ss2 /\ ss1 <> [] /\
    life cap nkinds G disp b sp hdr g0 ss1 = Some (Some p) /\
    apply_events G disp (concat ss1) g0 = Some g'.
Proof.
  intros cap nkinds G disp b sp hdr g0 ss evs g file p q env g' jr Hn Hc Hh A Ae S R HF HP HO.
  pose proof S as S'. rewrite life_size_app in S'. unfold life_size at 2 in S'. cbn [fold_right] in S'.
  destruct (in_progress_ok cap nkinds G disp Hn Hc b sp hdr g0 Hh ss evs g) as (j & E & _); auto; try lia.
  rewrite HF in E. injection E as E. rewrite HP in E. clear HF.
  unfold log_open, j_open in HO.
  destruct (split_header b sp p) as [body|] eqn:SH; [|discriminate].
  assert (HB : p = hdr ++ body).
  { unfold split_header in SH. destruct (take header_size p) as [[h bd]|] eqn:T; [|discriminate].
    destruct (open_header b sp h); try discriminate. injection SH as <-.
    apply take_some in T as (-> & L). unfold live_file in E. rewrite <- app_assoc in E.
    apply app_inj_len in E as [-> _]; auto. rewrite L. symmetry. apply Hh. }
  subst p. unfold live_file in E. rewrite <- app_assoc in E. apply app_inv_head in E.
  rewrite scroll_scan in HO.
  destruct (scan G (el_dec nkinds disp) (rd_of G js0 body g0)) as [r| |] eqn:SC; try discriminate.
  injection HO as Hg _.
  pose proof (scan_prefix G elev fst (el_dec nkinds disp) el_abytes (el_adisp G disp) (ev_wf nkinds)
     (el_meta_lt _ Hn) (el_dec_bytes _ _ _ Hn) (el_dec_cut _ _ _) (el_dec_suffix _ _ _) (prog_ops ss evs) js0 g0 [] body q r js0_wf
     (ok_prog nkinds ss evs A Ae)) as SP.
  assert (SZ : s_off js0 + len (ops_bytes elev fst el_abytes js0 (prog_ops ss evs) ++ []) < two64).
  { rewrite app_nil_r, ops_size_ok, <- sess_snoc. pose proof (size_sess (ss ++ [evs])) as Z.
    rewrite <- Z in S by (destruct ss; discriminate). unfold js0; cbn [s_off]. lia. }
  specialize (SP SZ (or_introl eq_refl)). rewrite app_nil_r in SP. specialize (SP (eq_sym E) SC).
  destruct SP as (ops1 & ops2 & g1 & HB & [Hops|[_ []]] & HR & Hg1 & _); [|reflexivity].
  (* the reopen found in the history separates two groups of sessions *)
  assert (SPLIT : exists ss1 ss2, ss = ss1 ++ ss2 /\ ss1 <> [] /\ ops1 = sess_ops ss1).
  { clear - Hops. revert evs ops1 ops2 Hops. induction ss as [|s ss IH] using rev_ind; intros evs ops1 ops2 H.
    - exfalso. cbn [prog_ops] in H. revert ops1 H. induction evs as [|e evs IHe]; intros ops1 H; destruct ops1; try discriminate.
      injection H as _ H. apply IHe in H; auto.
    - (* last reopen of the history, or an earlier one *)
      assert (E : prog_ops (ss ++ [s]) evs = prog_ops ss s ++ OCloseReopen elev :: map (OEv elev) evs).
      { rewrite <- (sess_snoc ss s). destruct ss; reflexivity. }
      rewrite E in H. clear E.
      destruct (le_lt_dec (List.length (prog_ops ss s)) (List.length ops1)) as [L|L].
      + destruct (app_eq_split _ _ _ _ H L) as (m & -> & Hm). destruct m as [|o m].
        * exists (ss ++ [s]), []. rewrite app_nil_r. rewrite sess_snoc, app_nil_r. repeat split; auto. destruct ss; discriminate.
        * exfalso. injection Hm as _ Hm. clear - Hm. revert m Hm. induction evs as [|e evs IHe]; intros m H; destruct m; try discriminate.
          injection H as _ H. apply IHe in H; auto.
      + symmetry in H. apply app_eq_split in H as (m & Hp & Hm); [|lia].
        destruct m as [|o m]. { rewrite app_nil_r in Hp. rewrite Hp in L. lia. }
        injection Hm as <- _. destruct (IH _ _ _ Hp) as (ss1 & ss2 & -> & N & O).
        exists ss1, (ss2 ++ [s]). rewrite app_assoc. auto. }
  destruct SPLIT as (ss1 & ss2 & -> & N & ->). exists ss1, ss2. repeat split; auto.
  - apply Forall_app in A as [A1 _]. rewrite !life_size_app in S. unfold life_size at 2 3 in S.
    rewrite events_sess, replay_apply in HR.
    rewrite (life_ok cap nkinds G disp Hn Hc b sp hdr g0 Hh ss1 g1) by (auto; lia).
    destruct ss1; [congruence|]. unfold closed_file. rewrite HB. reflexivity.
  - rewrite events_sess, replay_apply in HR. congruence.
Qed.
Print Assumptions C07_truncated_journal_never_misread.

(** ** C08: whatever bytes a journal holds, if it opens then it is an unbroken numbered sequence of
    entries ending in a clean close that seals everything before it. *)

(** an entry of a journal file: an event with its metadata word, or a driver record *)
Inductive entry := EEvent (meta : N) (payload : bytes) | EDriver (k : dkind) (lck loff ltxn : N).

(** entry number [i] as bytes: the number comes first, an event carries the checksum of its length
    and payload *)
Definition entry_bytes (i : N) (e : entry) : bytes :=
  match e with
  | EEvent m pl => u128_le i ++ u64_le m ++ u64_le (crc64 (u64_le (len pl) ++ pl)) ++ u64_le (len pl) ++ pl
  | EDriver k lck loff ltxn => enc_dev i k lck loff ltxn
  end.
(** entries numbered consecutively from [i] *)
Fixpoint entries_bytes (i : N) (es : list entry) : bytes :=
  match es with [] => [] | e :: es' => entry_bytes i e ++ entries_bytes (i + 1) es' end.
(** the events among the entries: the kind is the lowest byte of the metadata word *)
Definition entry_events (e : entry) : list elev :=
  match e with EEvent m pl => [(m mod 256, pl)] | _ => [] end.

Lemma entries_bytes_app a b : forall i,
  entries_bytes i (a ++ b) = entries_bytes i a ++ entries_bytes (i + N.of_nat (List.length a)) b.
Proof.
  induction a as [|e a IH]; intros i; cbn [app entries_bytes List.length].
  - replace (i + N.of_nat 0) with i by lia. reflexivity.
  - rewrite IH, <- app_assoc. do 3 f_equal. lia.
Qed.

Lemma mask_mod m : N.ldiff m server_ev_mask mod 256 = m mod 256.
Proof.
  change 256 with (2^8). rewrite <- !N.land_ones. apply N.bits_inj. intros i.
  rewrite !N.land_spec, N.ldiff_spec, mask_bit. destruct (N.ltb_spec i 8).
  - replace (i =? 63) with false by (symmetry; apply N.eqb_neq; lia). rewrite andb_true_r. reflexivity.
  - rewrite N.ones_spec_high by lia. rewrite !andb_false_r. reflexivity.
Qed.

(** position of the previous entry's end recorded by the driver (0 before the first entry) *)
Definition loff_at (txn off : N) : N := if txn =? 0 then 0 else off.

Lemma chain_entries nkinds (G : Type) disp s g l s' g' :
  chain G elev fst (el_dec nkinds disp) el_abytes s g l s' g' ->
  s_koff s = loff_at (s_txn s) (s_off s) -> s_known s = s_txn s - 1 ->
  exists es, l = entries_bytes (s_txn s) (es ++
      [EDriver DClosed (crc_finish (crc_update (s_ck s) (entries_bytes (s_txn s) es)))
        (loff_at (s_txn s + N.of_nat (List.length es)) (s_off s + len (entries_bytes (s_txn s) es)))
        (s_txn s + N.of_nat (List.length es) - 1)]) /\
    apply_events G disp (flat_map entry_events es) g = Some g' /\
    s_txn s' = s_txn s + N.of_nat (List.length es) + 1 /\ s_koff s' <> 0.
Proof.
  induction 1 as [s g|s g rest s' g' C IH|s g b2 x rest g1 s' g' L M A C IH]; intros HK HN.
  - exists []. cbn [app entries_bytes List.length flat_map apply_events entry_bytes].
    rewrite app_nil_r, len_nil, !N.add_0_r.
    split; [unfold dr_bytes; rewrite HK, HN; reflexivity|split; [reflexivity|split; [reflexivity|]]].
    unfold js_next; cbn [s_koff]. rewrite dr_len. lia.
  - destruct IH as (es & -> & R & T & KO); [cbn [js_op]; unfold js_next, loff_at; cbn [s_koff s_txn s_off]; destruct (N.eqb_spec (s_txn s + 1 + 1) 0); [lia|reflexivity]
                                      |cbn [js_op]; unfold js_next; cbn [s_known s_txn]; lia|].
    set (d1 := EDriver DClosed (crc_finish (s_ck s)) (s_koff s) (s_known s)).
    set (s1 := js_next s (dr_bytes s DClosed)).
    set (d2 := EDriver DReopened (crc_finish (s_ck s1)) (s_koff s1) (s_known s1)).
    exists (d1 :: d2 :: es).
    assert (B12 : entry_bytes (s_txn s) d1 ++ entry_bytes (s_txn s + 1) d2 = op_bytes elev fst el_abytes s (OCloseReopen elev)) by reflexivity.
    assert (TX : s_txn (js_op elev fst el_abytes s (OCloseReopen elev)) = s_txn s + 1 + 1) by reflexivity.
    assert (OFF : s_off (js_op elev fst el_abytes s (OCloseReopen elev)) = s_off s + len (op_bytes elev fst el_abytes s (OCloseReopen elev))) by apply js_op_off.
    assert (CK : s_ck (js_op elev fst el_abytes s (OCloseReopen elev)) = crc_update (s_ck s) (op_bytes elev fst el_abytes s (OCloseReopen elev))).
    { cbn [js_op op_bytes]. unfold js_next; cbn [s_ck]. rewrite crc_update_app. reflexivity. }
    rewrite TX, OFF, CK in *.
    split; [|split; [|split; [|exact KO]]].
    + cbn [app entries_bytes]. rewrite app_assoc, B12. f_equal.
      rewrite !entries_bytes_app. f_equal. cbn [entries_bytes entry_bytes]. rewrite !app_nil_r.
      rewrite app_assoc, B12, !crc_update_app, !len_app.
      cbn [List.length]. rewrite !Nat2N.inj_succ.
      replace (s_txn s + N.succ (N.succ (N.of_nat (length es)))) with (s_txn s + 1 + 1 + N.of_nat (length es)) by lia.
      replace (s_off s + (len (op_bytes elev fst el_abytes s (OCloseReopen elev)) + len (entries_bytes (s_txn s + 1 + 1) es)))
        with (s_off s + len (op_bytes elev fst el_abytes s (OCloseReopen elev)) + len (entries_bytes (s_txn s + 1 + 1) es)) by lia.
      reflexivity.
    + exact R.
    + rewrite T. cbn [List.length]. rewrite !Nat2N.inj_succ. lia.
  - destruct (el_dec_inv _ _ _ _ _ _ _ _ A) as (pl & HX & K & LP & D).
    apply app_inv_tail in HX. subst x.
    set (r1 := u128_le (s_txn s) ++ b2 ++ el_abytes (N.ldiff (le_dec b2) server_ev_mask mod 256, pl)) in *.
    assert (B1 : entry_bytes (s_txn s) (EEvent (le_dec b2) pl) = r1).
    { unfold r1, el_abytes. cbn [entry_bytes snd]. rewrite u64_enc_dec by auto. reflexivity. }
    destruct IH as (es & -> & R & T & KO); [unfold js_next, loff_at; cbn [s_koff s_txn s_off]; destruct (N.eqb_spec (s_txn s + 1) 0); [lia|reflexivity]
                                      |unfold js_next; cbn [s_known s_txn]; lia|].
    unfold js_next in R, T |- *; cbn [s_txn s_off s_ck] in R, T |- *.
    exists (EEvent (le_dec b2) pl :: es). split; [|split; [|split; [|exact KO]]].
    + cbn [app entries_bytes]. rewrite B1. f_equal.
      rewrite !entries_bytes_app. f_equal. cbn [entries_bytes entry_bytes]. rewrite !app_nil_r.
      rewrite !crc_update_app, !len_app. cbn [List.length]. rewrite !Nat2N.inj_succ.
      replace (s_txn s + N.succ (N.of_nat (length es))) with (s_txn s + 1 + N.of_nat (length es)) by lia.
      rewrite N.add_assoc. reflexivity.
    + cbn [flat_map entry_events app apply_events]. rewrite <- mask_mod, D. exact R.
    + rewrite T. cbn [List.length]. rewrite !Nat2N.inj_succ. lia.
Qed.

Lemma open_inv nkinds (G : Type) disp b sp env file g0 g jr :
  log_open nkinds G disp b sp env file g0 = JOk (g, jr) ->
  exists hdr body r, file = hdr ++ body /\ List.length hdr = 64%nat /\ (exists h, open_header b sp hdr = HOk h) /\
    scan G (el_dec nkinds disp) (rd_of G js0 body g0) = JOk r /\ r_gs G r = g /\
    jr = jw_new env file (r_cur G r) (r_crc G r) (r_txn G r) (r_loff G r).
Proof.
  unfold log_open, j_open, split_header. destruct (take header_size file) as [[h body]|] eqn:T; [|discriminate].
  apply take_some in T as (-> & L). destruct (open_header b sp h) eqn:OH; try discriminate.
  rewrite scroll_scan. destruct (scan _ _ _) as [r| |] eqn:S; try discriminate.
  intros H; injection H as <- <-. exists h, body, r. repeat split; eauto.
Qed.

Theorem C08_any_accepted_journal_is_numbered : forall nkinds (G : Type) disp b sp env file g0 g j wr,
  log_open nkinds G disp b sp env file g0 = JOk (g, (j, wr)) ->
  exists hdr es, List.length hdr = 64%nat /\
    let n := N.of_nat (List.length es) in
    let body := entries_bytes 0 es in
    (* entries 0 .. n-1, then entry n: a close record sealing them *)
    file = hdr ++ entries_bytes 0 (es ++ [EDriver DClosed (crc64 body) (loff_at n (64 + len body)) (n - 1)]) /\
    (* the state is the result of applying exactly the events among them, in order *)
    apply_events G disp (flat_map entry_events es) g0 = Some g /\
    (* the reopen record takes number n+1, the next entry n+2 *)
    j_txn j = n + 2.
Proof.
  intros nkinds G disp b sp env file g0 g j wr H.
  destruct (open_inv _ _ _ _ _ _ _ _ _ _ H) as (hdr & body & r & -> & L & _ & SC & Hg & Hj).
  apply (scan_chain G elev fst (el_dec nkinds disp) el_abytes (el_dec_suffix _ _ _) _ _ _ _ _ (le_n _)) in SC
    as (s' & g' & C & ->).
  apply chain_entries in C as (es & -> & R & T & KO); [|reflexivity|reflexivity].
  exists hdr, es. split; auto. cbn zeta. unfold js0 in *; cbn [s_txn s_ck s_off] in *.
  rewrite !N.add_0_l in *. split; [reflexivity|].
  cbn [rd_of r_gs] in Hg. subst g'. split; auto.
  unfold jw_new in Hj. cbn [rd_of r_loff r_txn] in Hj.
  apply N.eqb_neq in KO. rewrite KO in Hj. unfold j_driver_event, txn_context in Hj. cbn [j_txn j_w] in Hj.
  destruct (tracked_write_through _ _) as [w []]; injection Hj as -> _; cbn [j_txn]; lia.
Qed.
Print Assumptions C08_any_accepted_journal_is_numbered.

(** ** C09: an event is only ever replayed together with the checksum stored beside it. *)

(** Take any journal in use, and let it commit one more event [e], which appends 32 bytes (number,
    metadata, checksum) and then the length and payload. If what follows those 32 bytes is
    replaced by anything and the journal still opens, then a section with the recorded
    checksum is there. *)
Lemma prog_snoc ss evs e : prog_ops ss (evs ++ [e]) = prog_ops ss evs ++ [OEv elev e].
Proof.
  destruct ss; cbn [prog_ops]; rewrite map_app; auto. rewrite <- app_assoc. reflexivity.
Qed.

Theorem C09_altered_section_needs_same_checksum : forall cap nkinds (G : Type) (disp : N -> bytes -> G -> option G)
    b sp hdr g0 ss evs e g f head sec0 sec env g' jr,
  nkinds <= 256 -> 0 < cap -> hdr_ok b sp hdr ->
  Forall (Forall (ev_wf nkinds)) ss -> Forall (ev_wf nkinds) evs -> ev_wf nkinds e ->
  life_size (ss ++ [evs]) < two64 -> apply_events G disp (concat ss) g0 = Some g ->
  in_progress cap nkinds G disp b sp hdr g0 ss evs = Some f ->
  in_progress cap nkinds G disp b sp hdr g0 ss (evs ++ [e]) = Some (f ++ head ++ sec0) ->
  List.length head = 32%nat ->
  log_open nkinds G disp b sp env (f ++ head ++ sec) g0 = JOk (g', jr) ->
  exists pl rest, sec = u64_le (len pl) ++ pl ++ rest /\ len pl < two64 /\
    crc64 (u64_le (len pl) ++ pl) = crc64 (u64_le (len (snd e)) ++ snd e) /\
    sec0 = u64_le (len (snd e)) ++ snd e.
Proof.
  intros cap nkinds G disp b sp hdr g0 ss evs e g f head sec0 sec env g' jr Hn Hc Hh A Ae We S R HF HF1 LH HO.
  pose proof S as S'. rewrite life_size_app in S'. unfold life_size at 2 in S'. cbn [fold_right] in S'.
  destruct (in_progress_ok cap nkinds G disp Hn Hc b sp hdr g0 Hh ss evs g) as (j & E & _); auto; try lia.
  destruct (in_progress_ok cap nkinds G disp Hn Hc b sp hdr g0 Hh ss (evs ++ [e]) g) as (j1 & E1 & _); auto; try lia.
  { apply Forall_app; auto. }
  rewrite HF in E. injection E as ->. rewrite HF1, prog_snoc in E1. injection E1 as E1.
  unfold live_file in E1. rewrite ops_bytes_app, <- !app_assoc in E1. do 2 apply app_inv_head in E1.
  cbn [ops_bytes op_bytes] in E1. rewrite app_nil_r in E1.
  set (s := js_ops elev fst el_abytes js0 (prog_ops ss evs)) in *.
  assert (W : js_wf s) by (apply js_ops_wf, js0_wf).
  assert (SZ : s_off js0 + len (ops_bytes elev fst el_abytes js0 (prog_ops ss evs)) < two64).
  { rewrite ops_size_ok, <- sess_snoc. pose proof (size_sess (ss ++ [evs])) as Z.
    rewrite <- Z in S by (destruct ss; discriminate). unfold js0; cbn [s_off]. lia. }
  assert (O : s_off s < two64) by (unfold s; rewrite js_ops_off; exact SZ).
  unfold ev_bytes, el_abytes in E1. set (ck := u64_le (crc64 _)) in E1.
  assert (EH : head = u128_le (s_txn s) ++ u64_le (N.lor (fst e) server_ev_mask) ++ ck /\
               sec0 = u64_le (len (snd e)) ++ snd e).
  { replace (u128_le (s_txn s) ++ u64_le (N.lor (fst e) server_ev_mask) ++ ck ++ u64_le (len (snd e)) ++ snd e)
      with ((u128_le (s_txn s) ++ u64_le (N.lor (fst e) server_ev_mask) ++ ck) ++ u64_le (len (snd e)) ++ snd e) in E1
      by (rewrite <- !app_assoc; reflexivity).
    apply app_inj_len in E1 as [X Y]; auto. }
  destruct EH as [-> ->].
  unfold log_open, j_open, live_file in HO. rewrite <- app_assoc, split_header_app in HO by auto.
  rewrite scroll_scan in HO.
  rewrite (scan_ops G elev fst (el_dec nkinds disp) el_abytes (el_adisp G disp) (ev_wf nkinds) (el_meta_lt _ Hn)
    (el_dec_bytes _ _ _ Hn) (el_dec_suffix _ _ _)) in HO; auto using js0_wf, ok_prog.
  destruct (replay _ _ _ _ _) as [g1|]; [|discriminate]. fold s in HO.
  rewrite (scan_eq G (el_dec nkinds disp) (el_dec_suffix _ _ _)) in HO.
  replace ((u128_le (s_txn s) ++ u64_le (N.lor (fst e) server_ev_mask) ++ ck) ++ sec)
    with (u128_le (s_txn s) ++ u64_le (N.lor (fst e) server_ev_mask) ++ ck ++ sec) in HO by (rewrite <- !app_assoc; reflexivity).
  unfold r_step, rd_of in HO.
  rewrite r_read_app in HO by (auto using u128_len). rewrite r_read_app in HO by (auto using u64_len).
  rewrite u128_dec in HO by (apply off_txn; auto).
  assert (M : fst e < server_ev_mask) by (apply (el_meta_lt nkinds); auto).
  rewrite u64_dec in HO by (apply mask_lor_lt; auto). cbn [r_txn] in HO. rewrite N.eqb_refl in HO. cbn [negb] in HO.
  rewrite mask_land in HO by auto. change (server_ev_mask =? 0) with false in HO. cbn [negb] in HO.
  rewrite mask_ldiff in HO by auto. unfold r_adapter in HO; cbn [r_gs r_rest] in HO.
  destruct (el_dec nkinds disp (fst e) g1 (ck ++ sec)) as [[g2 rest]|] eqn:D; [|discriminate].
  apply el_dec_inv in D as (pl & HX & _ & LP & _).
  unfold el_abytes in HX; cbn [snd] in HX. rewrite <- !app_assoc in HX.
  apply app_inj_len in HX as [HC HX]; [|unfold ck; rewrite !u64_len; auto].
  unfold ck in HC. apply (le_enc_inj 8) in HC; [|apply crc64_lt|apply crc64_lt].
  exists pl, rest. auto.
Qed.
Print Assumptions C09_altered_section_needs_same_checksum.

(** In particular, damage within any 8 consecutive payload bytes (of one entry) is always detected. *)
Theorem C09_payload_damage_within_8_bytes_detected : forall cap nkinds (G : Type) (disp : N -> bytes -> G -> option G)
    b sp hdr g0 ss evs k (p x y q : bytes) g f head sec0 rest env g' jr,
  nkinds <= 256 -> 0 < cap -> hdr_ok b sp hdr ->
  Forall (Forall (ev_wf nkinds)) ss -> Forall (ev_wf nkinds) evs -> ev_wf nkinds (k, p ++ x ++ q) ->
  life_size (ss ++ [evs]) < two64 -> apply_events G disp (concat ss) g0 = Some g ->
  in_progress cap nkinds G disp b sp hdr g0 ss evs = Some f ->
  in_progress cap nkinds G disp b sp hdr g0 ss (evs ++ [(k, p ++ x ++ q)]) = Some (f ++ head ++ sec0) ->
  List.length head = 32%nat ->
  List.length y = List.length x -> (List.length x <= 8)%nat -> x <> y ->
  log_open nkinds G disp b sp env (f ++ head ++ u64_le (len (p ++ x ++ q)) ++ (p ++ y ++ q) ++ rest) g0 <> JOk (g', jr).
Proof.
  intros cap nkinds G disp b sp hdr g0 ss evs k p x y q g f head sec0 rest env g' jr Hn Hc Hh A Ae We S R HF HF1 LH LY L8 NE HO.
  destruct (C09_altered_section_needs_same_checksum _ _ _ _ _ _ _ _ _ _ _ _ _ _ _ _ _ _ _ Hn Hc Hh A Ae We S R HF HF1 LH HO)
    as (pl & rest' & HS & LP & HC & _). cbn [snd] in *.
  apply app_inj_len in HS as [HL HS]; [|rewrite !u64_len; auto].
  destruct We as [_ We]. cbn [snd] in We.
  assert (EL : len pl = len (p ++ x ++ q)).
  { symmetry. apply (le_enc_inj 8) in HL; auto. }
  rewrite EL in HC.
  assert (EP : pl = p ++ y ++ q).
  { symmetry. apply app_inj_len in HS as [X _]; auto. unfold len in EL. rewrite !app_length in *. lia. }
  rewrite EP in HC. rewrite (app_assoc _ p), (app_assoc _ p (x ++ q)) in HC.
  revert HC. apply crc64_burst; auto. lia.
Qed.
Print Assumptions C09_payload_damage_within_8_bytes_detected.

(** ** C51: damage confined to 8 consecutive bytes anywhere after the header of a cleanly closed
    journal is detected when it is opened. *)
Theorem C51_damage_within_8_bytes_detected : forall cap nkinds (G : Type) (disp : N -> bytes -> G -> option G)
    b sp hdr g0 ss g file (p x y q : bytes) env g' jr,
  nkinds <= 256 -> 0 < cap -> hdr_ok b sp hdr ->
  Forall (Forall (ev_wf nkinds)) ss -> life_size ss < two64 -> apply_events G disp (concat ss) g0 = Some g ->
  life cap nkinds G disp b sp hdr g0 ss = Some (Some file) ->
  file = p ++ x ++ q -> (64 <= List.length p)%nat ->
  List.length y = List.length x -> (List.length x <= 8)%nat -> x <> y ->
  log_open nkinds G disp b sp env (p ++ y ++ q) g0 <> JOk (g', jr).
Proof.
  intros cap nkinds G disp b sp hdr g0 ss g file p x y q env g' jr Hn Hc Hh A S R HF HP LP LY L8 NE HO.
  rewrite (life_ok cap nkinds G disp Hn Hc b sp hdr g0 Hh ss g) in HF by auto.
  destruct ss as [|s ss]; [discriminate|]. injection HF as HF. rewrite HP in HF.
  unfold closed_file in HF. apply app_eq_split in HF as (p1 & -> & HB); [|pose proof (proj1 Hh); lia].
  unfold log_open, j_open in HO. rewrite <- app_assoc, split_header_app in HO by auto. rewrite scroll_scan in HO.
  destruct (scan _ _ _) as [r| |] eqn:SC; try discriminate.
  revert SC. apply (burst_detected G elev fst (el_dec nkinds disp) el_abytes (el_adisp G disp) (ev_wf nkinds)
    (el_meta_lt _ Hn) (el_dec_bytes _ _ _ Hn) (el_dec_suffix _ _ _) (sess_ops (s :: ss)) g0 p1 x y q r); auto using ok_sess.
  rewrite ops_size_ok. pose proof (size_sess (s :: ss)) as Z. rewrite <- Z in S by discriminate. lia.
Qed.
Print Assumptions C51_damage_within_8_bytes_detected.

(** ** C10: a failed append, then a health check that says all is well. *)

Definition with_env (j : jw) (env : list sys) : jw :=
  let w := j_w j in
  mk_jw (mk_tw env (w_file w) (w_cursor w) (w_ck w) (w_part w) (w_buf w)) (j_txn j) (j_known j) (j_koff j).

(** a journal in use: sessions [ss] done, [evs] committed in the present one *)
Definition in_use cap nkinds G disp b sp hdr g0 ss evs (j : jw) : Prop :=
  exists file j0, life cap nkinds G disp b sp hdr g0 ss = Some file /\
    start nkinds G disp b sp hdr g0 file = Some j0 /\ run_commits cap j0 evs = Some j.

(** file contents only ever grow *)
Lemma fwrite_grows env : forall file buf n env' file' n' r,
  fwrite_loop env file buf n = (env', file', n', r) -> exists x, file' = file ++ x.
Proof.
  induction env as [|o env IH]; intros file buf n env' file' n' r H; cbn [fwrite_loop] in H;
    destruct (n =? len buf).
  - injection H as <- <- <- <-. exists []. rewrite app_nil_r; auto.
  - destruct (n =? 0); injection H as <- <- <- <-; eauto. exists []. rewrite app_nil_r; auto.
  - injection H as <- <- <- <-. exists []. rewrite app_nil_r; auto.
  - destruct (sys_count o buf) as [k|].
    + destruct (k =? 0).
      * injection H as <- <- <- <-. exists []. rewrite app_nil_r; auto.
      * apply IH in H as [x ->]. rewrite <- app_assoc. eauto.
    + injection H as <- <- <- <-. exists []. rewrite app_nil_r; auto.
Qed.

Definition grows (f : tw -> tw * wres) : Prop := forall w w' r, f w = (w', r) -> exists x, w_file w' = w_file w ++ x.

Lemma flush_buf_grows : grows flush_buf.
Proof.
  intros w w' r H. unfold flush_buf, fwrite_all_count in H.
  destruct (fwrite_loop _ _ _ _) as [[[env file] n] q] eqn:F. apply fwrite_grows in F as [x ->].
  destruct q; try destruct (_ <? _); injection H as <- <-; cbn [w_file]; eauto.
Qed.

Lemma untracked_grows cap x : grows (fun w => untracked_write cap w x).
Proof.
  intros w w' r H. unfold untracked_write in H. destruct (_ <=? _).
  - injection H as <- <-. exists []. rewrite app_nil_r; auto.
  - destruct (flush_buf w) as [w1 r1] eqn:F. apply flush_buf_grows in F as [y F].
    destruct r1; try (injection H as <- <-; eauto).
    unfold fwrite_all_count in H. destruct (fwrite_loop _ _ _ _) as [[[env file] n] q] eqn:F2.
    apply fwrite_grows in F2 as [z ->]. rewrite F, <- app_assoc in H.
    destruct q; injection H as <- <-; cbn [w_file]; eauto.
Qed.

Lemma tracked_grows cap x : grows (fun w => tracked_write cap w x).
Proof.
  intros w w' r H. unfold tracked_write in H. destruct (untracked_write cap w x) as [w1 r1] eqn:U.
  apply (untracked_grows cap x) in U as [y U].
  destruct r1; try destruct (_ <? _); injection H as <- <-; cbn [w_file]; eauto.
Qed.

Lemma flush_sync_grows : grows flush_sync.
Proof.
  intros w w' r H. unfold flush_sync in H. destruct (flush_buf w) as [w1 r1] eqn:F.
  apply flush_buf_grows in F as [y F].
  destruct r1; try (injection H as <- <-; eauto). destruct (w_env w1); injection H as <- <-; cbn [w_file]; eauto.
Qed.

Lemma wseq_grows f k : grows f -> (grows k) -> grows (fun w => wseq (f w) k).
Proof.
  intros Hf Hk w w' r H. unfold wseq in H. destruct (f w) as [w1 r1] eqn:F. apply Hf in F as [y F].
  destruct r1; try (injection H as <- <-; eauto). apply Hk in H as [z H]. rewrite H, F, <- app_assoc. eauto.
Qed.

Lemma el_commit_grows cap e : grows (fun w => el_commit cap w e).
Proof.
  unfold el_commit. apply (wseq_grows (fun w => tracked_write cap w _)); [apply tracked_grows|].
  apply (wseq_grows (fun w => tracked_write cap w _)); apply tracked_grows.
Qed.

Lemma log_commit_grows cap j e j' r : log_commit cap j e = (j', r) ->
  (exists x, w_file (j_w j') = w_file (j_w j) ++ x) /\ j_txn j' = j_txn j + 1 /\
  (r <> WOk -> j_known j' = j_known j /\ j_koff j' = j_koff j).
Proof.
  unfold log_commit, j_commit, txn_context. cbn [j_w].
  match goal with |- context [wseq ?a ?b] => destruct (wseq a b) as [w q] eqn:E end.
  assert (X : exists x, w_file w = w_file (j_w j) ++ x).
  { revert E. apply (wseq_grows (fun w => tracked_write cap w _)); [apply tracked_grows|].
    apply (wseq_grows (fun w => tracked_write cap w _)); [apply tracked_grows|].
    apply (wseq_grows (fun w => el_commit cap w e)); [apply el_commit_grows|apply flush_sync_grows]. }
  intros H. destruct q; injection H as <- <-; cbn [j_w j_txn j_known j_koff]; repeat split; auto; congruence.
Qed.

(** no write of the log touches the partial checksum *)
Lemma flush_buf_part w w' r : flush_buf w = (w', r) -> w_part w' = w_part w.
Proof.
  unfold flush_buf. destruct (fwrite_all_count _ _ _) as [[[? ?] n] q]. destruct q, (len (w_buf w) <? n);
    intros E; injection E as <- <-; reflexivity.
Qed.
Lemma tracked_part cap w b w' r : tracked_write cap w b = (w', r) -> w_part w' = w_part w.
Proof.
  unfold tracked_write, untracked_write. destruct (len b <=? cap - len (w_buf w)).
  - intros E; injection E as <- <-. reflexivity.
  - destruct (flush_buf w) as [w1 q] eqn:F. apply flush_buf_part in F.
    destruct q; try (destruct (fwrite_all_count _ _ _) as [[[? ?] n] q2]; destruct q2);
      try (intros E; injection E as <- <-; exact F);
      cbn [w_cursor]; match goal with |- context [if ?c then _ else _] => destruct c end;
      intros E; injection E as <- <-; exact F.
Qed.
Lemma flush_sync_part w w' r : flush_sync w = (w', r) -> w_part w' = w_part w.
Proof.
  unfold flush_sync. destruct (flush_buf w) as [w1 q] eqn:F. apply flush_buf_part in F.
  destruct q; try (intros E; injection E as <- <-; exact F).
  destruct (w_env w1); intros E; injection E as <- <-; exact F.
Qed.
Lemma wseq_part f g (Pf : forall w w' r, f w = (w', r) -> w_part w' = w_part w)
    (Pg : forall w w' r, g w = (w', r) -> w_part w' = w_part w) w w' r :
  wseq (f w) g = (w', r) -> w_part w' = w_part w.
Proof.
  unfold wseq. destruct (f w) as [w1 q] eqn:F. apply Pf in F.
  destruct q; intros E; [apply Pg in E; congruence|..]; injection E as <- <-; exact F.
Qed.
Lemma log_commit_part cap j e j' r : log_commit cap j e = (j', r) -> w_part (j_w j') = w_part (j_w j).
Proof.
  unfold log_commit, j_commit, txn_context. cbn [j_w].
  match goal with |- context [wseq ?a ?b] => destruct (wseq a b) as [w q] eqn:E end.
  assert (X : w_part w = w_part (j_w j)).
  { revert E. apply (wseq_part (fun w => tracked_write cap w _)); [intros *; apply tracked_part|].
    apply (wseq_part (fun w => tracked_write cap w _)); [intros *; apply tracked_part|].
    apply (wseq_part (fun w => el_commit cap w e)); [|intros *; apply flush_sync_part].
    intros w0. unfold el_commit. apply (wseq_part (fun w => tracked_write cap w _)); [intros *; apply tracked_part|].
    apply (wseq_part (fun w => tracked_write cap w _)); intros *; apply tracked_part. }
  intros H. destruct q; injection H as <- <-; exact X.
Qed.

(** The health check is accurate about the file: if it passes after a failed append, the file holds
    exactly what it held after the last successful operation. (Part of C10 that holds; reopening
    later is what fails, below.) *)
Theorem C10_heartbeat_means_file_intact_partial :
  forall cap nkinds (G : Type) (disp : N -> bytes -> G -> option G) b sp hdr g0 ss evs g j env e j1 r j2,
  nkinds <= 256 -> 0 < cap -> hdr_ok b sp hdr ->
  Forall (Forall (ev_wf nkinds)) ss -> Forall (ev_wf nkinds) evs ->
  life_size ss < two64 -> apply_events G disp (concat ss) g0 = Some g ->
  in_use cap nkinds G disp b sp hdr g0 ss evs j ->
  log_commit cap (with_env j env) e = (j1, r) -> r <> WOk -> j_heartbeat j1 = (j2, true) ->
  w_file (j_w j2) = w_file (j_w j) /\ w_buf (j_w j2) = [] /\ w_cursor (j_w j2) = len (w_file (j_w j)).
Proof.
  intros cap nkinds G disp b sp hdr g0 ss evs g j env e j1 r j2 Hn Hc Hh A Ae S R (file & j0 & L1 & L2 & L3) C NR HB.
  destruct (in_progress_ok cap nkinds G disp Hn Hc b sp hdr g0 Hh ss evs g) as (j' & E & (file' & j0' & M1 & M2 & M3) & J); auto.
  assert (j' = j) as -> by congruence.
  destruct J as (H & B & F & K & T & Kn & Ko & Of).
  apply log_commit_grows in C as ([x X] & T1 & K1). destruct (K1 NR) as [Kn1 Ko1].
  cbn [with_env j_w w_file j_koff] in *. unfold j_heartbeat in HB.
  destruct (verify_cursor (j_w j1)) eqn:V; cbn [negb] in HB; [|discriminate].
  destruct (N.eqb_spec (w_cursor (j_w j1)) (j_koff j1)) as [Q|]; [|discriminate].
  injection HB as <-. cbn [j_w zero_buffer w_file w_buf w_cursor].
  unfold verify_cursor in V. apply N.eqb_eq in V.
  assert (W : js_wf (js_ops elev fst el_abytes js0 (prog_ops ss evs))) by (apply js_ops_wf, js0_wf).
  set (s := js_ops elev fst el_abytes js0 (prog_ops ss evs)) in *.
  destruct W as (_ & _ & W3 & _ & W5 & _ & W7).
  rewrite X, F, len_app in V.
  assert (x = []) as ->. { apply len_0. rewrite Q, Ko1, Ko in V. lia. }
  rewrite X, app_nil_r. repeat split; auto. rewrite V, F, len_nil. lia.
Qed.
Print Assumptions C10_heartbeat_means_file_intact_partial.

(** But the sequence number of the failed append is gone: whatever is written next (an event or the
    close record) carries a number the reader does not expect, and the file can never be opened
    again, whatever else is appended to it. The health check passing makes no difference. *)
Theorem C10_self_repair_never_works :
  forall cap nkinds (G : Type) (disp : N -> bytes -> G -> option G) b sp hdr g0 ss evs g j env e j1 r j2 j3 tail env',
  nkinds <= 256 -> 0 < cap -> hdr_ok b sp hdr ->
  Forall (Forall (ev_wf nkinds)) ss -> Forall (ev_wf nkinds) evs ->
  life_size (ss ++ [evs]) + 64 < two64 -> apply_events G disp (concat ss) g0 = Some g ->
  in_use cap nkinds G disp b sp hdr g0 ss evs j ->
  log_commit cap (with_env j env) e = (j1, r) -> r <> WOk -> j_heartbeat j1 = (j2, true) ->
  (* the disk is healthy again: the next event or the close record is written successfully *)
  (exists e2, ev_wf nkinds e2 /\ log_commit cap (with_env j2 []) e2 = (j3, WOk)) \/
  j_close (with_env j2 []) = (j3, WOk) ->
  log_open nkinds G disp b sp env' (w_file (j_w j3) ++ tail) g0 = JErr.
Proof.
  intros cap nkinds G disp b sp hdr g0 ss evs g j env e j1 r j2 j3 tail env' Hn Hc Hh A Ae S R U C NR HB NX.
  pose proof S as S'. rewrite life_size_app in S'. unfold life_size at 2 in S'. cbn [fold_right] in S'.
  destruct (C10_heartbeat_means_file_intact_partial cap nkinds G disp b sp hdr g0 ss evs g j env e j1 r j2
     Hn Hc Hh A Ae ltac:(lia) R U C NR HB) as (F2 & B2 & C2).
  destruct U as (file & j0 & L1 & L2 & L3).
  destruct (in_progress_ok cap nkinds G disp Hn Hc b sp hdr g0 Hh ss evs g) as (j' & E & (file' & j0' & M1 & M2 & M3) & J); auto; try lia.
  assert (j' = j) as -> by congruence.
  destruct J as (H & B & F & K & T & Kn & Ko & Of & Pt).
  pose proof (log_commit_part _ _ _ _ _ C) as P1. cbn [with_env j_w w_part] in P1.
  apply log_commit_grows in C as (_ & T1 & _). cbn [with_env j_txn] in T1.
  assert (T2 : j_txn j2 = j_txn j + 1).
  { unfold j_heartbeat in HB. destruct (negb _); [discriminate|]. destruct (_ =? _); [|discriminate].
    injection HB as <-. exact T1. }
  assert (P2 : w_part (j_w j2) = crc_new).
  { unfold j_heartbeat in HB. destruct (negb _); [discriminate|]. destruct (_ =? _); [|discriminate].
    injection HB as <-. cbn [j_w zero_buffer w_part]. congruence. }
  set (s := js_ops elev fst el_abytes js0 (prog_ops ss evs)) in *.
  set (f := live_file elev fst el_abytes hdr (prog_ops ss evs)) in *.
  set (s2 := mk_js (s_txn s + 1) (j_known j2) (j_koff j2) (w_ck (j_w j2)) (len f)).
  assert (J2 : jw_of cap (with_env j2 []) s2 f).
  { unfold jw_of, s2, with_env. cbn [j_w w_env w_file w_cursor w_ck w_part w_buf j_txn j_known j_koff s_ck s_txn s_known s_koff s_off].
    rewrite F2, B2, C2, F, T2, T. repeat split; auto; cbn [w_file w_buf w_cursor w_env].
    - rewrite app_nil_r; reflexivity.
    - rewrite len_nil; lia.
    - apply atomic_nil. }
  assert (W3 : exists x, w_file (j_w j3) = f ++ u128_le (s_txn s + 1) ++ x /\ (8 <= List.length x)%nat).
  { destruct NX as [(e2 & We2 & NX)|NX].
    - destruct (commit_ok cap elev fst (el_commit cap) el_abytes (ev_wf nkinds) (el_commit_happy cap nkinds) _ _ _ e2 J2 We2) as (j4 & E4 & J4).
      unfold log_commit in NX. rewrite NX in E4. injection E4 as <-.
      destruct J4 as (_ & _ & F4 & _). rewrite F4. unfold ev_bytes. cbn [s_txn s2]. eexists. split; [reflexivity|].
      rewrite app_length, u64_len. lia.
    - destruct (driver_ok cap _ _ _ DClosed J2) as (j4 & E4 & J4). unfold j_close in NX. rewrite NX in E4. injection E4 as <-.
      destruct J4 as (_ & _ & F4 & _). rewrite F4. rewrite dr_split. cbn [s_txn s2]. eexists. split; [reflexivity|].
      rewrite app_length, u64_len. lia. }
  destruct W3 as (x & -> & LX).
  assert (SZ : s_off js0 + len (ops_bytes elev fst el_abytes js0 (prog_ops ss evs)) < two64).
  { rewrite ops_size_ok, <- sess_snoc. pose proof (size_sess (ss ++ [evs])) as Z.
    rewrite <- Z in S by (destruct ss; discriminate). unfold js0; cbn [s_off]. lia. }
  assert (W : js_wf s) by (apply js_ops_wf, js0_wf).
  assert (O : s_off s < two64) by (unfold s; rewrite js_ops_off; exact SZ).
  unfold log_open, j_open, f, live_file. rewrite <- !app_assoc, split_header_app by auto.
  rewrite scroll_scan.
  rewrite (scan_ops G elev fst (el_dec nkinds disp) el_abytes (el_adisp G disp) (ev_wf nkinds) (el_meta_lt _ Hn)
    (el_dec_bytes _ _ _ Hn) (el_dec_suffix _ _ _)); auto using js0_wf, ok_prog.
  destruct (replay _ _ _ _ _) as [g1|]; [|reflexivity]. fold s.
  rewrite (scan_eq G (el_dec nkinds disp) (el_dec_suffix _ _ _)).
  destruct (split_at 8 x LX) as (x1 & x2 & -> & LX1 & _).
  unfold r_step, rd_of. rewrite r_read_app by (auto using u128_len). rewrite <- app_assoc, r_read_app by auto.
  pose proof W as (W1 & _). cbn [r_txn].
  rewrite u128_dec by (unfold two128, two64 in *; lia).
  replace (s_txn s + 1 =? s_txn s) with false by (symmetry; apply N.eqb_neq; lia). reflexivity.
Qed.
Print Assumptions C10_self_repair_never_works.

(** The health check of a journal in which nothing has been committed yet never passes, although
    nothing is wrong with the file. *)
Theorem C10_fresh_journal_check_always_fails : forall cap hdr j env e j1 r,
  List.length hdr = 64%nat -> j_create [] hdr = (j, WOk) ->
  log_commit cap (with_env j env) e = (j1, r) -> r <> WOk -> snd (j_heartbeat j1) = false.
Proof.
  intros cap hdr j env e j1 r L HJ C NR. unfold j_create, jw_new in HJ. rewrite N.eqb_refl in HJ.
  injection HJ as <-. apply log_commit_grows in C as ([x X] & T1 & K1). destruct (K1 NR) as [Kn1 Ko1].
  cbn [with_env j_w w_file tw_new j_koff] in X, Ko1. unfold j_heartbeat, verify_cursor.
  destruct (N.eqb_spec (w_cursor (j_w j1)) (len (w_file (j_w j1)))) as [V|]; cbn [negb]; [|reflexivity].
  destruct (N.eqb_spec (w_cursor (j_w j1)) (j_koff j1)) as [Q|]; [|reflexivity].
  exfalso. rewrite Q, Ko1, X, len_app in V. unfold len at 1 in V. rewrite L in V. lia.
Qed.
Print Assumptions C10_fresh_journal_check_always_fails.

(** *** Concrete cases *)
Definition jx_build : build := mk_build 0 1 0 1 1 1.
Definition jx_hdr : bytes := enc_header jx_build spec_gns 1700000000 (repeat Byte.x00 8).
Definition jx_e0 : elev := (3, bstr "first"%string).
Definition jx_e1 : elev := (0, bstr "second event"%string).
Definition jx_e2 : elev := (12, []).

Definition jx_ss : list (list elev) := [[jx_e0; jx_e1]; []; [jx_e2]].

(** what a file replays to *)
Definition jx_open (f : bytes) : option (list elev * wres) :=
  match log_open 13 _ collect jx_build spec_gns [] f [] with JOk (g, (_, r)) => Some (g, r) | _ => None end.
Definition jx_life (ss : list (list elev)) : bytes :=
  match life 8192 13 _ collect jx_build spec_gns jx_hdr [] ss with Some (Some f) => f | _ => [] end.
Definition jx_prog (ss : list (list elev)) (evs : list elev) : bytes :=
  match in_progress 8192 13 _ collect jx_build spec_gns jx_hdr [] ss evs with Some f => f | _ => [] end.

Example C06_example : hdr_ok jx_build spec_gns jx_hdr /\
  Forall (Forall (ev_wf 13)) jx_ss /\ life_size jx_ss < two64 /\
  len (jx_life jx_ss) = 521 /\ jx_open (jx_life jx_ss) = Some ([jx_e0; jx_e1; jx_e2], WOk).
Proof.
  split; [split; [reflexivity|exists (new_header jx_build spec_gns 1700000000 (repeat Byte.x00 8)); vm_compute; reflexivity]|].
  split; [repeat constructor|]. split; [vm_compute; reflexivity|]. split; vm_compute; reflexivity.
Qed.

(** a truncation that is refused and one that is not (C07) *)
Example C07_example : 
  jx_open (firstn 200 (jx_prog [[jx_e0]; [jx_e1]] [jx_e2])) = None /\
  jx_open (firstn 173 (jx_prog [[jx_e0]; [jx_e1]] [jx_e2])) = Some ([jx_e0], WOk).
Proof. split; vm_compute; reflexivity. Qed.

(** an accepted file (C08): two entries, a close record, then the next numbers *)
Example C08_example : 
  exists lck, firstn 237 (jx_life [[jx_e0; jx_e1]]) = jx_hdr ++ entries_bytes 0
     [EEvent (server_ev_mask + 3) (bstr "first"%string); EEvent server_ev_mask (bstr "second event"%string); EDriver DClosed lck 161 1].
Proof.
  exists (crc64 (entries_bytes 0 [EEvent (server_ev_mask + 3) (bstr "first"%string); EEvent server_ev_mask (bstr "second event"%string)])).
  vm_compute. reflexivity.
Qed.

(** one altered byte of a payload or of the sealing record (C09, C51) *)
Definition jx_damage (n : nat) (f : bytes) : bytes := firstn n f ++ [Byte.xff] ++ skipn (S n) f.
Example C09_C51_example :
  jx_open (jx_life [[jx_e0; jx_e1]]) = Some ([jx_e0; jx_e1], WOk) /\
  jx_open (jx_damage 105 (jx_life [[jx_e0; jx_e1]])) = None /\
  jx_open (jx_damage 220 (jx_life [[jx_e0; jx_e1]])) = None.
Proof. repeat split; vm_compute; reflexivity. Qed.

(** the failing history of C10: one commit fails cleanly, the health check passes, a later commit and
    the close succeed, and the file cannot be opened any more *)
Definition jx_j : jw :=
  match start 13 _ collect jx_build spec_gns jx_hdr [] None with
  | Some j => match run_commits 8192 j [jx_e0] with Some j => j | None => mk_jw (tw_new [] [] 0 0) 0 0 0 end
  | None => mk_jw (tw_new [] [] 0 0) 0 0 0
  end.
Definition jx_j1 := fst (log_commit 8192 (with_env jx_j [SysErr]) jx_e1).
Definition jx_j2 := fst (j_heartbeat jx_j1).
Definition jx_j3 := fst (log_commit 8192 jx_j2 jx_e2).
Definition jx_j4 := fst (j_close jx_j3).

Theorem C10_repaired_journal_unusable_refuted : exists j j1 j2 j3 j4,
  in_use 8192 13 _ collect jx_build spec_gns jx_hdr [] [] [jx_e0] j /\
  log_commit 8192 (with_env j [SysErr]) jx_e1 = (j1, WErr) /\
  j_heartbeat j1 = (j2, true) /\
  log_commit 8192 j2 jx_e2 = (j3, WOk) /\ j_close j3 = (j4, WOk) /\
  log_open 13 _ collect jx_build spec_gns [] (w_file (j_w j4)) [] = JErr.
Proof.
  exists jx_j, jx_j1, jx_j2, jx_j3, jx_j4. split.
  { exists None. 
    exists (match start 13 _ collect jx_build spec_gns jx_hdr [] None with Some j => j | None => mk_jw (tw_new [] [] 0 0) 0 0 0 end).
    split; [vm_compute; reflexivity|]. split; vm_compute; reflexivity. }
  split; [vm_compute; reflexivity|]. split; [vm_compute; reflexivity|]. split; [vm_compute; reflexivity|].
  split; vm_compute; reflexivity.
Qed.
Print Assumptions C10_repaired_journal_unusable_refuted.
