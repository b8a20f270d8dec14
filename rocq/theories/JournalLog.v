(** The system-log journal: server runs against it, and the journal lemmas for its adapter. *)
From Coq Require Import List Arith NArith Lia Bool.
From Verif Require Import Bytes CodecProofs CrcModel CrcProofs WriterModel WriterProofs
  HeaderModel HeaderProofs JournalModel JournalProofs.
Import ListNotations.
Local Open Scope N_scope.

(** ** The system-log journal: the generic journal with the event-log adapter *)
Section Log.
Variable cap : N.
Variable nkinds : N.
Variable G : Type.
Variable disp : N -> bytes -> G -> option G.

Definition log_commit : jw -> elev -> jw * wres := j_commit cap elev fst (el_commit cap).
Definition log_open : build -> filespec -> list sys -> bytes -> G -> jres (G * (jw * wres)) :=
  j_open G (el_dec nkinds disp).

(** A server run on a healthy disk: it commits the events of each session in turn... *)
Fixpoint run_commits (j : jw) (evs : list elev) : option jw :=
  match evs with
  | [] => Some j
  | e :: evs' => match log_commit j e with (j', WOk) => run_commits j' evs' | _ => None end
  end.
(** ... opens the file (or creates it with header [hdr] when this is the first session) ... *)
Definition start (b : build) (sp : filespec) (hdr : bytes) (g0 : G) (file : option bytes) : option jw :=
  match file with
  | None => match j_create [] hdr with (j, WOk) => Some j | _ => None end
  | Some f => match log_open b sp [] f g0 with JOk (_, (j, WOk)) => Some j | _ => None end
  end.
(** ... and closes it: file contents after each session *)
Definition one_session b sp hdr g0 (file : option bytes) (evs : list elev) : option bytes :=
  match start b sp hdr g0 file with
  | None => None
  | Some j =>
    match run_commits j evs with
    | None => None
    | Some j' => match j_close j' with (j'', WOk) => Some (w_file (j_w j'')) | _ => None end
    end
  end.
Fixpoint life_from b sp hdr g0 (file : option bytes) (ss : list (list elev)) : option (option bytes) :=
  match ss with
  | [] => Some file
  | evs :: ss' => match one_session b sp hdr g0 file evs with
                  | None => None
                  | Some f => life_from b sp hdr g0 (Some f) ss'
                  end
  end.
(** file after the sessions [ss], all closed cleanly ([Some None]: no file yet) *)
Definition life b sp hdr g0 (ss : list (list elev)) : option (option bytes) := life_from b sp hdr g0 None ss.
(** file in the middle of one more session that has committed [evs] and has not been closed *)
Definition in_progress b sp hdr g0 (ss : list (list elev)) (evs : list elev) : option bytes :=
  match life b sp hdr g0 ss with
  | None => None
  | Some file => match start b sp hdr g0 file with
                 | None => None
                 | Some j => option_map (fun j => w_file (j_w j)) (run_commits j evs)
                 end
  end.

(** applying events in order *)
Fixpoint apply_events (evs : list elev) (g : G) : option G :=
  match evs with
  | [] => Some g
  | (k, pl) :: evs' => match disp k pl g with Some g' => apply_events evs' g' | None => None end
  end.

(** events the server can write *)
Definition ev_wf (e : elev) : Prop := fst e < nkinds /\ len (snd e) < two64.
(** size of the file after the sessions: header, 40 bytes and the payload per event, close and
    reopen records *)
Definition evs_size (evs : list elev) : N := fold_right (fun e n => 40 + len (snd e) + n) 0 evs.
Definition life_size (ss : list (list elev)) : N := 64 + fold_right (fun evs n => evs_size evs + 128 + n) 0 ss.

(** *** instance of the generic development *)
Definition el_abytes (e : elev) : bytes :=
  u64_le (crc64 (u64_le (len (snd e)) ++ snd e)) ++ u64_le (len (snd e)) ++ snd e.
Definition el_adisp (e : elev) (g : G) : option G := disp (fst e) (snd e) g.

Lemma el_meta_lt : nkinds <= 256 -> forall e, ev_wf e -> fst e < server_ev_mask.
Proof. intros Hn e [H _]. unfold server_ev_mask. lia. Qed.

Lemma el_commit_happy w d e : ev_wf e -> happy cap w d -> w_part w = crc_new ->
  exists w', el_commit cap w e = (w', WOk) /\ happy cap w' (d ++ el_abytes e) /\
             w_ck w' = crc_update (w_ck w) (el_abytes e) /\ w_part w' = crc_new.
Proof.
  intros _ H P. unfold el_commit, el_abytes. set (c := u64_le (crc64 _)).
  destruct (tracked_write_happy cap _ _ c H) as (w1 & E1 & H1 & K1 & P1). rewrite E1; cbn [wseq].
  destruct (tracked_write_happy cap _ _ (u64_le (len (snd e))) H1) as (w2 & E2 & H2 & K2 & P2). rewrite E2; cbn [wseq].
  destruct (tracked_write_happy cap _ _ (snd e) H2) as (w3 & E3 & H3 & K3 & P3). rewrite E3.
  exists w3. rewrite <- !app_assoc in H3. rewrite K3, K2, K1, P3, P2, P1, !crc_update_app. auto.
Qed.

Lemma el_dec_bytes : nkinds <= 256 -> forall e g sfx, ev_wf e ->
  el_dec nkinds disp (fst e) g (el_abytes e ++ sfx)
  = match el_adisp e g with Some g' => Some (g', sfx) | None => None end.
Proof.
  intros Hn e g sfx [K L]. unfold el_dec, el_abytes, el_adisp. rewrite <- !app_assoc.
  rewrite N.mod_small by lia. replace (fst e <? nkinds) with true by (symmetry; apply N.ltb_lt; auto). cbn [negb].
  rewrite (take_app_k 8) by (apply u64_len). rewrite (take_app_k 8) by (apply u64_len).
  rewrite u64_dec by auto. rewrite takeN_app. rewrite u64_dec by (apply crc64_lt). rewrite N.eqb_refl. cbn [negb].
  destruct (disp (fst e) (snd e) g); reflexivity.
Qed.

Lemma el_dec_inv m g l g' l' : el_dec nkinds disp m g l = Some (g', l') ->
  exists pl, l = el_abytes (m mod 256, pl) ++ l' /\ m mod 256 < nkinds /\ len pl < two64 /\
             disp (m mod 256) pl g = Some g'.
Proof.
  unfold el_dec. destruct (N.ltb_spec (m mod 256) nkinds) as [K|]; cbn [negb]; [|discriminate].
  destruct (take 8 l) as [[ck l1]|] eqn:T1; [|discriminate]. apply take_some in T1 as (-> & L1).
  destruct (take 8 l1) as [[plen l2]|] eqn:T2; [|discriminate]. apply take_some in T2 as (-> & L2).
  destruct (takeN (le_dec plen) l2) as [[pl l3]|] eqn:T3; [|discriminate]. apply takeN_some in T3 as (-> & L3).
  destruct (N.eqb_spec (crc64 (u64_le (le_dec plen) ++ pl)) (le_dec ck)) as [C|]; cbn [negb]; [|discriminate].
  destruct (disp (m mod 256) pl g) as [g1|] eqn:D; [|discriminate]. intros H; injection H as <- <-.
  exists pl. unfold el_abytes. cbn [snd]. rewrite L3.
  rewrite (u64_enc_dec plen) in * by auto. rewrite C, u64_enc_dec by auto.
  rewrite <- !app_assoc. repeat split; auto. apply u64_dec_bound; auto.
Qed.

Lemma el_dec_suffix m g l g' l' : el_dec nkinds disp m g l = Some (g', l') -> exists x, l = x ++ l'.
Proof. intros H. apply el_dec_inv in H as (pl & -> & _). eauto. Qed.

Lemma el_dec_cut e g p q : ev_wf e -> el_abytes e = p ++ q -> q <> [] -> el_dec nkinds disp (fst e) g p = None.
Proof.
  intros W H Hq. destruct (el_dec nkinds disp (fst e) g p) as [[g' l']|] eqn:D; auto. exfalso.
  destruct (el_dec_inv _ _ _ _ _ D) as (pl & -> & _ & L & _).
  unfold el_abytes in H. cbn [snd] in H. rewrite <- !app_assoc in H.
  apply app_inj_len in H as [_ H]; [|rewrite !u64_len; auto].
  apply app_inj_len in H as [HL H]; [|rewrite !u64_len; auto].
  apply (le_enc_inj 8) in HL; [|apply W|auto].
  apply (f_equal (@List.length byte)) in H. rewrite !app_length in H. unfold len in HL.
  destruct q; [congruence|]. cbn [List.length] in H. lia.
Qed.

Notation Ops := (list (op elev)).
Notation obytes := (ops_bytes elev fst el_abytes).
Notation jops := (js_ops elev fst el_abytes).
Notation cfile := (closed_file elev fst el_abytes).
Notation lfile := (live_file elev fst el_abytes).

(** sessions as a history of the generic development *)
Definition sess_ops (ss : list (list elev)) : Ops :=
  match ss with [] => [] | s :: ss' => map (OEv elev) s ++ flat_map (fun evs => OCloseReopen elev :: map (OEv elev) evs) ss' end.
Definition prog_ops (ss : list (list elev)) (evs : list elev) : Ops :=
  match ss with [] => map (OEv elev) evs | _ => sess_ops ss ++ OCloseReopen elev :: map (OEv elev) evs end.

Lemma events_map evs : events elev (map (OEv elev) evs) = evs.
Proof.
  induction evs as [|e evs IH]; [reflexivity|]. cbn [map events flat_map op_events app]. f_equal. exact IH.
Qed.
Lemma events_flat ss : events elev (flat_map (fun evs => OCloseReopen elev :: map (OEv elev) evs) ss) = concat ss.
Proof.
  induction ss as [|s ss IH]; cbn [flat_map concat]; auto. rewrite events_app, IH. cbn [events flat_map app op_events].
  change (flat_map (op_events elev) (map (OEv elev) s)) with (events elev (map (OEv elev) s)). rewrite events_map. reflexivity.
Qed.
Lemma events_sess ss : events elev (sess_ops ss) = concat ss.
Proof.
  destruct ss as [|s ss]; [reflexivity|]. cbn [sess_ops concat]. rewrite events_app, events_map, events_flat. reflexivity.
Qed.
Lemma events_prog ss evs : events elev (prog_ops ss evs) = concat ss ++ evs.
Proof.
  destruct ss as [|s ss]; cbn [prog_ops]. { rewrite events_map. reflexivity. }
  rewrite events_app, events_sess. cbn [events flat_map op_events app].
  change (flat_map (op_events elev) (map (OEv elev) evs)) with (events elev (map (OEv elev) evs)). rewrite events_map. reflexivity.
Qed.
Lemma sess_snoc ss evs : sess_ops (ss ++ [evs]) = prog_ops ss evs.
Proof.
  destruct ss as [|s ss]; cbn [app sess_ops prog_ops]. { cbn [flat_map]. rewrite app_nil_r. reflexivity. }
  rewrite flat_map_app, <- app_assoc. cbn [flat_map]. rewrite app_nil_r. reflexivity.
Qed.

Lemma replay_apply evs : forall g, replay G elev el_adisp evs g = apply_events evs g.
Proof. induction evs as [|[k pl] evs IH]; intros g; cbn; auto. unfold el_adisp; cbn. destruct (disp k pl g); auto. Qed.

Lemma ok_ops evs : Forall ev_wf evs -> Forall (op_ok elev ev_wf) (map (OEv elev) evs).
Proof. induction 1; cbn; constructor; auto. Qed.
Lemma ok_flat ss : Forall (Forall ev_wf) ss ->
  Forall (op_ok elev ev_wf) (flat_map (fun evs => OCloseReopen elev :: map (OEv elev) evs) ss).
Proof.
  induction 1; cbn [flat_map app]; constructor; cbn; auto. apply Forall_app. auto using ok_ops.
Qed.
Lemma ok_sess ss : Forall (Forall ev_wf) ss -> Forall (op_ok elev ev_wf) (sess_ops ss).
Proof.
  intros H. destruct H; cbn [sess_ops]; [constructor|]. apply Forall_app. auto using ok_ops, ok_flat.
Qed.
Lemma ok_prog ss evs : Forall (Forall ev_wf) ss -> Forall ev_wf evs -> Forall (op_ok elev ev_wf) (prog_ops ss evs).
Proof.
  intros H1 H2. rewrite <- sess_snoc. apply ok_sess. apply Forall_app. auto.
Qed.

Definition op_size (o : op elev) : N := match o with OEv _ e => 40 + len (snd e) | OCloseReopen _ => 128 end.
Lemma op_size_ok s o : len (op_bytes elev fst el_abytes s o) = op_size o.
Proof.
  destruct o; cbn [op_bytes op_size].
  - rewrite ev_len. unfold el_abytes. rewrite !len_app.
    rewrite !len_u64. lia.
  - rewrite len_app, !dr_len. reflexivity.
Qed.
Definition ops_size (ops : Ops) : N := fold_right (fun o n => op_size o + n) 0 ops.
Lemma ops_size_ok ops : forall s, len (obytes s ops) = ops_size ops.
Proof.
  induction ops as [|o ops IH]; intros s; cbn [ops_bytes ops_size fold_right]. { apply len_nil. }
  rewrite len_app, op_size_ok, IH. reflexivity.
Qed.
Lemma ops_size_app a b : ops_size (a ++ b) = ops_size a + ops_size b.
Proof. unfold ops_size. induction a; cbn [app fold_right]; lia. Qed.
Lemma size_map evs : ops_size (map (OEv elev) evs) = evs_size evs.
Proof. unfold ops_size, evs_size. induction evs; cbn [map fold_right op_size]; lia. Qed.
Lemma size_flat ss : ops_size (flat_map (fun evs => OCloseReopen elev :: map (OEv elev) evs) ss)
  = fold_right (fun evs n => evs_size evs + 128 + n) 0 ss.
Proof.
  induction ss; cbn [flat_map fold_right]; auto. rewrite ops_size_app, IHss.
  pose proof (size_map a) as M. unfold ops_size in *. cbn [fold_right op_size]. lia.
Qed.
Lemma size_sess ss : ss <> [] -> 64 + ops_size (sess_ops ss) + 128 = life_size ss.
Proof.
  destruct ss as [|s ss]; [congruence|]. intros _. cbn [sess_ops]. rewrite ops_size_app, size_map, size_flat.
  unfold life_size. cbn [fold_right]. lia.
Qed.
Lemma life_size_app a b : life_size (a ++ b) = life_size a + life_size b - 64.
Proof.
  unfold life_size. induction a; cbn [app fold_right]; lia.
Qed.

Section Hist.
Hypothesis nkinds_le : nkinds <= 256.
Hypothesis cap_pos : 0 < cap.
Variable b : build.
Variable sp : filespec.
Variable hdr : bytes.
Variable g0 : G.
Hypothesis Hh : hdr_ok b sp hdr.

Lemma hdr_len : List.length hdr = 64%nat. Proof. apply Hh. Qed.
Lemma cfile_len ops : len (cfile hdr ops) = 64 + ops_size ops + 64.
Proof. unfold closed_file. rewrite !len_app, dr_len, ops_size_ok. unfold len at 1. rewrite hdr_len. lia. Qed.

Lemma run_commits_eq evs : forall j, run_commits j evs =
  match commits cap elev fst (el_commit cap) j evs with (j', WOk) => Some j' | _ => None end.
Proof.
  induction evs as [|e evs IH]; intros j; cbn; auto. unfold log_commit.
  destruct (j_commit cap elev fst (el_commit cap) j e) as [j' []]; auto.
Qed.

Lemma start_ok ss g : Forall (Forall ev_wf) ss -> life_size ss < two64 -> apply_events (concat ss) g0 = Some g ->
  exists j, start b sp hdr g0 (match ss with [] => None | _ => Some (cfile hdr (sess_ops ss)) end) = Some j /\
    jw_of cap j (jops js0 (prog_ops ss [])) (lfile hdr (prog_ops ss [])).
Proof.
  intros A S R. destruct ss as [|s ss].
  - cbn [start prog_ops map]. destruct (create_ok cap elev fst el_abytes hdr hdr_len) as (j & E & J). rewrite E. eauto.
  - cbn [start]. unfold log_open.
    destruct (open_ok cap G elev fst (el_dec nkinds disp) el_abytes el_adisp ev_wf (el_meta_lt nkinds_le) (el_dec_bytes nkinds_le) el_dec_suffix
                b sp hdr (sess_ops (s :: ss)) g0 g) as (j & E & J); auto using ok_sess.
    + rewrite cfile_len. pose proof (size_sess (s :: ss)) as Z. rewrite <- Z in S by discriminate. lia.
    + rewrite events_sess, replay_apply. auto.
    + rewrite E. eauto.
Qed.

Lemma one_session_ok ss evs g : Forall (Forall ev_wf) ss -> Forall ev_wf evs -> life_size ss < two64 ->
  apply_events (concat ss) g0 = Some g ->
  one_session b sp hdr g0 (match ss with [] => None | _ => Some (cfile hdr (sess_ops ss)) end) evs
  = Some (cfile hdr (sess_ops (ss ++ [evs]))).
Proof.
  intros A Ae S R. destruct (start_ok ss g A S R) as (j & E & J). unfold one_session. rewrite E.
  rewrite run_commits_eq.
  destruct (commits_ok cap elev fst (el_commit cap) el_abytes ev_wf el_commit_happy evs _ _ _ J Ae) as (j1 & E1 & J1).
  rewrite E1. destruct (close_ok cap elev fst el_abytes _ _ _ J1) as (j2 & E2 & F2). rewrite E2, F2, sess_snoc.
  do 2 f_equal. destruct ss; cbn [prog_ops map]; [reflexivity|]. rewrite <- app_assoc. reflexivity.
Qed.

Lemma apply_app x y : forall g, apply_events (x ++ y) g =
  match apply_events x g with Some g' => apply_events y g' | None => None end.
Proof. induction x as [|[k pl] x IH]; intros g; cbn; auto. destruct (disp k pl g); auto. Qed.

Lemma life_from_ok : forall ss done g, Forall (Forall ev_wf) (done ++ ss) -> life_size (done ++ ss) < two64 ->
  apply_events (concat (done ++ ss)) g0 = Some g ->
  life_from b sp hdr g0 (match done with [] => None | _ => Some (cfile hdr (sess_ops done)) end) ss
  = Some (match done ++ ss with [] => None | _ => Some (cfile hdr (sess_ops (done ++ ss))) end).
Proof.
  induction ss as [|evs ss IH]; intros done g A S R; cbn [life_from].
  - rewrite app_nil_r. reflexivity.
  - pose proof A as A'. apply Forall_app in A' as [A1 A2]. inversion A2; subst.
    rewrite concat_app, apply_app in R. destruct (apply_events (concat done) g0) as [g1|] eqn:R1; [|discriminate].
    rewrite life_size_app in S. unfold life_size at 2 in S.
    rewrite (one_session_ok done evs g1) by (auto; lia).
    specialize (IH (done ++ [evs]) g). rewrite <- app_assoc in IH. cbn [app] in IH.
    destruct (done ++ [evs]) eqn:D; [destruct done; discriminate|]. rewrite <- D in *. 
    rewrite IH; auto.
    + rewrite life_size_app. unfold life_size at 2. lia.
    + rewrite concat_app, apply_app, R1. exact R.
Qed.

Lemma life_ok ss g : Forall (Forall ev_wf) ss -> life_size ss < two64 -> apply_events (concat ss) g0 = Some g ->
  life b sp hdr g0 ss = Some (match ss with [] => None | _ => Some (cfile hdr (sess_ops ss)) end).
Proof. intros A S R. exact (life_from_ok ss [] g A S R). Qed.

Lemma in_progress_ok ss evs g : Forall (Forall ev_wf) ss -> Forall ev_wf evs -> life_size ss < two64 ->
  apply_events (concat ss) g0 = Some g ->
  exists j, in_progress b sp hdr g0 ss evs = Some (lfile hdr (prog_ops ss evs)) /\
    (exists file j0, life b sp hdr g0 ss = Some file /\ start b sp hdr g0 file = Some j0 /\ run_commits j0 evs = Some j) /\
    jw_of cap j (jops js0 (prog_ops ss evs)) (lfile hdr (prog_ops ss evs)).
Proof.
  intros A Ae S R. unfold in_progress. rewrite (life_ok ss g) by auto.
  destruct (start_ok ss g A S R) as (j & E & J). rewrite E.
  rewrite run_commits_eq.
  destruct (commits_ok cap elev fst (el_commit cap) el_abytes ev_wf el_commit_happy evs _ _ _ J Ae) as (j1 & E1 & J1).
  rewrite E1. cbn [option_map].
  replace (prog_ops ss [] ++ map (OEv elev) evs) with (prog_ops ss evs) in J1
    by (destruct ss; cbn [prog_ops map]; [reflexivity|rewrite <- app_assoc; reflexivity]).
  exists j1. split; [|split]; [| |exact J1].
  - destruct J1 as (_ & _ & F & _). rewrite F. reflexivity.
  - do 2 eexists. split; [reflexivity|]. split; [exact E|]. rewrite run_commits_eq, E1. reflexivity.
Qed.
End Hist.
End Log.
