(** What a server that cannot start says (C124). The specification is the table below: for every step of the start, the text that should stand before the
    failure itself; and the order of the steps. *)
From Coq Require Import List Arith NArith Bool Init.Byte String Lia.
From Verif Require Import Bytes NumModel NumProofs StartMsgModel.
Import ListNotations.

(** ** Specification *)
(** the part of the server a step belongs to *)
Inductive part := PInit | PStorage | PNetwork.
Definition part_of (d : doing) : part :=
  match d with
  | DPid | DRuntime | DSignals => PInit
  | DBind _ _ | DTls => PNetwork
  | _ => PStorage
  end.
(** how a message begins: the words for the part *)
Definition opening (d : doing) : bytes :=
  match part_of d with
  | PInit => bstr "init system error: "
  | PStorage => bstr "storage error error: "
  | PNetwork => bstr "runtime error: "
  end.
(** how a message begins that has lost its part *)
Definition vague : bytes := bstr "runtime error: ".
(** the words for the step *)
Definition words (d : doing) : bytes :=
  match d with
  | DPid => bstr "locking PID file; "
  | DRuntime => bstr "initializing runtime; "
  | DSignals => bstr "binding system signals; "
  | DOldLoad => bstr "loading storage-v1 in compatibility mode; "
  | DOldModel p => bstr "failed to restore model data from journal in `" ++ p ++ bstr "`; "
  | DUpGns => bstr "creating gns; "
  | DUpSpaces => bstr "creating all spaces; "
  | DUpModels => bstr "creating all models; "
  | DUpUsers => bstr "creating all users; "
  | DNew => bstr "creating databases; "
  | DGns => bstr "loading gns; "
  | DModel p => bstr "loading model driver in " ++ p ++ bstr "; "
  | DPassword => bstr "updating password to system database from configuration; "
  | DBind h p => bstr "failed to bind to port `" ++ h ++ bstr ":" ++ dec_u64 p ++ bstr "`; "
  | DTls => bstr "failed to initialize TLS socket; "
  end.
(** the words for the failure *)
Definition reason (f : fault) : bytes :=
  match f with
  | FIo t => bstr "io error: " ++ t
  | FStorage t => bstr "storage error: " ++ t
  | FTxn t => bstr "txn error: " ++ t
  | FOther t => bstr "error: " ++ t
  end.
(** the steps of a start in their order *)
Definition schedule (i : install) (e : endpoints) : list doing :=
  [DPid; DRuntime; DSignals] ++
  match i with
  | OldInstall paths s m u =>
      [DOldLoad] ++ map DOldModel paths ++ repeat DOldLoad 5 ++ [DUpGns] ++ repeat DUpSpaces (2 * s) ++ repeat DUpModels (4 * m) ++ repeat DUpUsers u
  | NewInstall => [DNew; DNew; DNew]
  | V2Install paths repass => [DGns] ++ map DModel paths ++ (if repass then [DPassword] else [])
  end ++
  match e with
  | EpTcp h p => [DBind h p]
  | EpTls h p => [DBind h p; DTls]
  | EpBoth h p h2 p2 => [DBind h p; DBind h2 p2; DTls]
  end.
(** [ks]'s call number [n] is the first that fails, with [f] *)
Definition first_failure (ks : list scall) (n : nat) (f : fault) : Prop :=
  (exists k, nth_error ks n = Some k /\ k_end k = Some f) /\ (forall m k, m < n -> nth_error ks m = Some k -> k_end k = None).
(** no error is made and then dropped *)
Definition nothing_dropped (ks : list scall) : Prop := forall k, In k ks -> k_dropped k = [].
(** errors of OpenSSL come from the step that uses it *)
Definition ssl_in_tls (d : doing) (f : fault) : Prop := forall t, f = FOther t -> d = DTls.

(** ** Proofs *)
Fixpoint calls_of (prog : list sitem) : list doing :=
  match prog with
  | [] => []
  | ISet _ :: r => calls_of r
  | ICall d _ :: r => d :: calls_of r
  end.
Lemma calls_of_app : forall a b, calls_of (a ++ b) = calls_of a ++ calls_of b.
Proof. induction a as [|[op|d w] a IH]; intro b; cbn; [reflexivity| apply IH| rewrite IH; reflexivity]. Qed.
Lemma calls_of_repeat : forall d w n, calls_of (repeat (ICall d w) n) = repeat d n.
Proof. induction n; cbn; [reflexivity| rewrite IHn; reflexivity]. Qed.
Lemma calls_of_old : forall paths,
  calls_of (map (fun p => ICall (DOldModel p) (WrInherit (bstr "failed to restore model data from journal in `" ++ p ++ bstr "`"))) paths) = map DOldModel paths.
Proof. induction paths; cbn [map calls_of]; [reflexivity| rewrite IHpaths; reflexivity]. Qed.
Lemma calls_of_v2 : forall paths,
  calls_of (flat_map (fun p => [ISet (CDmsg (bstr "loading model driver in " ++ p)); ICall (DModel p) WrPlain]) paths) = map DModel paths.
Proof. induction paths; cbn [map flat_map app calls_of]; [reflexivity| rewrite IHpaths; reflexivity]. Qed.
Lemma schedule_eq : forall i e, calls_of prog_init ++ calls_of (prog_load i) ++ calls_of (prog_start e) = schedule i e.
Proof.
  intros i e. unfold schedule. f_equal. f_equal.
  - destruct i as [paths s m u| |paths repass]; unfold prog_load; cbn [calls_of].
    + unfold prog_v1, prog_recreate.
      repeat first [rewrite calls_of_app | rewrite calls_of_repeat | rewrite calls_of_old | progress cbn [calls_of app]].
      rewrite <- !app_assoc. reflexivity.
    + reflexivity.
    + unfold prog_restore. rewrite !calls_of_app, calls_of_v2. cbn [calls_of app]. destruct repass; reflexivity.
  - destruct e; reflexivity.
Qed.

(** a context with some of what another has *)
Definition part_ctx (c c0 : ctx) : Prop :=
  (c_origin c = c_origin c0 \/ c_origin c = None) /\ (c_dmsg c = c_dmsg c0 \/ c_dmsg c = None).
Lemma part_ctx_refl : forall c, part_ctx c c.
Proof. intro; split; left; reflexivity. Qed.
Lemma part_ctx_set : forall op c c0, part_ctx c c0 -> part_ctx (ctx_set op c) (ctx_set op c0).
Proof. intros [o d|d|o] c c0 [A B]; split; cbn; auto. Qed.
Lemma part_ctx_drop : forall fs c c0, part_ctx c c0 -> part_ctx (drop_all fs c) c0.
Proof.
  unfold drop_all. induction fs as [|f fs IH]; intros c c0 P; cbn [fold_left]; [exact P|].
  apply IH. destruct P as [A B]. destruct f; cbn; split; cbn; auto.
Qed.

(** every call of a program is under the context it should be under *)
Definition suits (d : doing) (w : wrap) (c : ctx) : Prop :=
  match w with
  | WrPlain => exists o m, c = {| c_origin := Some o; c_dmsg := Some m |} /\ subsys_str o ++ bstr " error: " = opening d /\ m ++ bstr "; " = words d /\ part_of d <> PNetwork /\ (forall p, d <> DOldModel p)
  | WrOwn m => part_of d = PNetwork /\ m ++ bstr "; " = words d
  | WrInherit m => exists o, c_origin c = Some o /\ subsys_str o ++ bstr " error: " = opening d /\ m ++ bstr "; " = words d /\ (exists p, d = DOldModel p)
  end.
Fixpoint covered (prog : list sitem) (c : ctx) : Prop :=
  match prog with
  | [] => True
  | ISet op :: r => covered r (ctx_set op c)
  | ICall d w :: r => suits d w c /\ covered r c
  end.
Fixpoint after (prog : list sitem) (c : ctx) : ctx :=
  match prog with
  | [] => c
  | ISet op :: r => after r (ctx_set op c)
  | ICall _ _ :: r => after r c
  end.
Lemma covered_app : forall a b c, covered (a ++ b) c <-> covered a c /\ covered b (after a c).
Proof.
  induction a as [|[op|d w] a IH]; intros b c; cbn [app covered after]; [tauto| apply IH|]. rewrite IH. tauto.
Qed.
Lemma covered_repeat : forall d w n c, suits d w c -> covered (repeat (ICall d w) n) c.
Proof. induction n; intros c H; cbn [repeat covered]; auto. Qed.
Lemma after_repeat : forall d w n c, after (repeat (ICall d w) n) c = c.
Proof. induction n; intro c; cbn [repeat after]; auto. Qed.
Ltac suit := do 2 eexists; split; [reflexivity|]; split; [reflexivity|]; split; [reflexivity|]; split; [discriminate| intro; discriminate].
Lemma covered_init : covered prog_init ctx_null.
Proof. cbn [covered prog_init]. split; [suit|]. split; [suit|]. split; [suit|exact I]. Qed.
Lemma covered_v1 : forall paths c,
  c = {| c_origin := Some SStorage; c_dmsg := Some (bstr "loading storage-v1 in compatibility mode") |} ->
  covered (prog_v1 paths) c /\ after (prog_v1 paths) c = c.
Proof.
  intros paths c ->. unfold prog_v1. cbn [covered after].
  assert (A : forall l c, after (map (fun p => ICall (DOldModel p) (WrInherit (bstr "failed to restore model data from journal in `" ++ p ++ bstr "`"))) l) c = c)
    by (induction l; intro; cbn [map after]; auto).
  assert (AA : forall l b c, after (l ++ b) c = after b (after l c)).
  { induction l as [|[op|d w] l IH]; intros b c; cbn [app after]; auto. }
  split; [split; [suit|]|].
  - apply covered_app. split.
    + induction paths as [|p paths IH]; cbn [map covered]; [exact I|]. split; [|exact IH].
      exists SStorage. split; [reflexivity|]. split; [reflexivity|]. split; [|exists p; reflexivity].
      cbn [words]. rewrite <- !app_assoc. reflexivity.
    + rewrite A. apply covered_repeat. suit.
  - rewrite AA, A. apply after_repeat.
Qed.
Lemma covered_recreate : forall s m u c, c_origin c = Some SStorage -> covered (prog_recreate s m u) c.
Proof.
  intros s m u [o d] H. cbn in H. subst o. unfold prog_recreate. cbn [app covered]. split; [suit|].
  apply covered_app. split; [apply covered_repeat; suit|]. rewrite after_repeat. cbn [app covered].
  apply covered_app. split; [apply covered_repeat; suit|]. rewrite after_repeat. cbn [app covered].
  apply covered_repeat. suit.
Qed.
Lemma covered_load : forall i, covered (prog_load i) ctx_null.
Proof.
  intro i. unfold prog_load. cbn [covered]. destruct i as [paths s m u| |paths repass]; cbn [covered].
  - destruct (covered_v1 paths _ eq_refl) as [A B]. apply covered_app. split; [exact A|].
    cbn [covered]. apply covered_recreate. cbn [ctx_set c_origin ctx_null]. rewrite B. reflexivity.
  - unfold prog_new. apply covered_repeat. suit.
  - unfold prog_restore. cbn [app covered]. split; [suit|]. apply covered_app. split.
    + cbn [ctx_set c_origin ctx_null]. generalize (Some (bstr "loading gns")).
      induction paths as [|p paths IH]; intro dm; cbn [flat_map app covered ctx_set c_origin]; [exact I|]. split; [|apply IH].
      exists SStorage, (bstr "loading model driver in " ++ p). split; [reflexivity|]. split; [reflexivity|]. split; [|split; [discriminate| intro; discriminate]].
      cbn [words]. rewrite <- !app_assoc. reflexivity.
    + destruct repass; cbn [covered]; [|exact I]. split; [|exact I].
      assert (O : forall l c, c_origin c = Some SStorage ->
        c_origin (after (flat_map (fun p => [ISet (CDmsg (bstr "loading model driver in " ++ p)); ICall (DModel p) WrPlain]) l) c) = Some SStorage).
      { induction l as [|p l IH]; intros c H; cbn [flat_map app after]; [exact H|]. apply IH. exact H. }
      cbn [ctx_set]. rewrite O by reflexivity. suit.
Qed.
Lemma covered_start : forall e c, covered (prog_start e) c.
Proof.
  assert (B : forall h p c, suits (DBind h p) (WrOwn (bstr "failed to bind to port `" ++ h ++ bstr ":" ++ dec_u64 p ++ bstr "`")) c).
  { intros h p c. split; [reflexivity|]. cbn [words]. rewrite <- !app_assoc. reflexivity. }
  assert (T : forall c, suits DTls (WrOwn (bstr "failed to initialize TLS socket")) c) by (intro; split; reflexivity).
  intros e c. unfold prog_start. cbn [app covered]. destruct e; unfold bind_item, tls_items; cbn [covered app]; auto 8.
Qed.

(** what the message of a failing call can be *)
Definition message_of (d : doing) (f : fault) (lost : Prop) (er : serror) : Prop :=
  se_kind er = f /\
  (ssl_in_tls d f ->
   serror_str er = opening d ++ words d ++ reason f \/
   (lost /\ part_of d = PStorage /\
    (serror_str er = vague ++ words d ++ reason f \/
     (forall p, d <> DOldModel p) /\ (serror_str er = opening d ++ reason f \/ serror_str er = vague ++ reason f))) \/
   (lost /\ part_of d = PInit)).
Lemma suits_message : forall d w c0 c f,
  suits d w c0 -> part_ctx c c0 -> message_of d f (c <> c0) (fst (wrap_err w f c)).
Proof.
  intros d w c0 c f S0 P. split.
  { destruct w; cbn [wrap_err]; [destruct f; reflexivity| reflexivity|]. destruct f; cbn [conv]; cbn [se_origin se_kind]; destruct (c_origin c); reflexivity. }
  intro N. destruct w as [|m|m]; cbn [suits wrap_err] in *.
  - destruct S0 as (o & m & -> & A & B & D & Q).
    assert (E : serror_str (fst (conv f c)) =
                match c_origin c with Some o => subsys_str o ++ bstr " error: " | None => bstr "runtime error: " end ++
                match c_dmsg c with Some d => d ++ bstr "; " | None => [] end ++ reason f).
    { destruct f; try reflexivity. exfalso. specialize (N _ eq_refl). subst d. apply D. reflexivity. }
    rewrite E. destruct c as [co cd]. cbn [c_origin c_dmsg] in *. destruct P as [PA PB]. cbn [c_origin c_dmsg] in *.
    destruct PA as [-> | ->], PB as [-> | ->].
    + left. rewrite A, <- B, <- !app_assoc. reflexivity.
    + right. destruct (part_of d) eqn:Ep; [right; split; [discriminate|reflexivity]| |congruence].
      left. split; [discriminate|]. split; [reflexivity|]. right. split; [exact Q|left; rewrite A; reflexivity].
    + right. destruct (part_of d) eqn:Ep; [right; split; [discriminate|reflexivity]| |congruence].
      left. split; [discriminate|]. split; [reflexivity|]. left. rewrite <- B, <- !app_assoc. reflexivity.
    + right. destruct (part_of d) eqn:Ep; [right; split; [discriminate|reflexivity]| |congruence].
      left. split; [discriminate|]. split; [reflexivity|]. right. split; [exact Q|right; reflexivity].
  - destruct S0 as [A B]. left. cbn [fst]. unfold serror_str, opening. cbn [se_origin se_dmsg se_kind]. rewrite A, <- B, <- !app_assoc. reflexivity.
  - destruct S0 as (o & A & B & D & [p ->]).
    assert (NS : match f with FOther _ => False | _ => True end) by (destruct f; try exact I; discriminate (N _ eq_refl)).
    destruct P as [[PA|PA] _].
    + left. rewrite A in PA. rewrite <- B, <- D.
      destruct f; try contradiction; cbn [conv]; cbn [se_origin se_kind]; rewrite PA; reflexivity.
    + right. left. split; [intros ->; congruence|]. split; [reflexivity|]. left. rewrite <- D.
      destruct f; try contradiction; cbn [conv]; cbn [se_origin se_kind]; rewrite PA; cbn [c_origin ctx_null fst]; try rewrite PA; reflexivity.
Qed.
Lemma message_of_weaken : forall d f (L L' : Prop) er, (L -> L') -> message_of d f L er -> message_of d f L' er.
Proof.
  intros d f L L' er H [A B]. split; [exact A|]. intro N. destruct (B N) as [X|[(X & Y & Z)|(X & Y)]].
  - left. exact X.
  - right. left. auto.
  - right. right. auto.
Qed.
(** an error is made and dropped in a call between [lo] and [n] *)
Definition dropped_in (ks : list scall) (lo n : nat) : Prop := exists m k, lo <= m <= n /\ nth_error ks m = Some k /\ k_dropped k <> [].
Definition all_fine (ks : list scall) (n : nat) : Prop := forall m k, m < n -> nth_error ks m = Some k -> k_end k = None.
Lemma srun_spec : forall prog c c0 ks,
  part_ctx c c0 -> covered prog c0 ->
  match srun prog c ks with
  | SFail d er => exists n f, first_failure ks n f /\ nth_error (calls_of prog) n = Some d /\ message_of d f (c <> c0 \/ dropped_in ks 0 n) er
  | SDone c' ks' => all_fine ks (List.length (calls_of prog)) /\ ks' = skipn (List.length (calls_of prog)) ks
  end.
Proof.
  induction prog as [|[op|d w] prog IH]; intros c c0 ks P Cv; cbn [srun calls_of covered] in *.
  - cbn [List.length skipn]. split; [intros m k Lm; lia|reflexivity].
  - specialize (IH _ _ ks (part_ctx_set op _ _ P) Cv). destruct (srun prog (ctx_set op c) ks) as [d er|c' ks']; [|exact IH].
    destruct IH as (n & f & F & Nd & M). exists n, f. split; [exact F|]. split; [exact Nd|].
    refine (message_of_weaken _ _ _ _ _ _ M). intros [X|X]; [left; congruence| right; exact X].
  - destruct Cv as [S0 Cv]. destruct ks as [|k ks].
    + specialize (IH _ _ [] P Cv). destruct (srun prog c []) as [d' er|c' ks'].
      * destruct IH as (n & f & [(k & Nk & _) _] & _). destruct n; discriminate Nk.
      * destruct IH as [_ ->]. split; [intros m k _ E; destruct m; discriminate E| cbn [List.length]; rewrite !skipn_nil; reflexivity].
    + destruct (k_end k) as [f|] eqn:Ek.
      * exists 0, f. split; [split; [exists k; split; [reflexivity|exact Ek]| intros m k' Lm; lia]|]. split; [reflexivity|].
        refine (message_of_weaken _ _ _ _ _ _ (suits_message _ _ _ _ f S0 (part_ctx_drop (k_dropped k) _ _ P))).
        intro X. destruct (k_dropped k) as [|g gs] eqn:Eg; [left; exact X|].
        right. exists 0, k. split; [lia|]. split; [reflexivity|]. rewrite Eg. discriminate.
      * specialize (IH _ _ ks (part_ctx_drop (k_dropped k) _ _ P) Cv).
        destruct (srun prog (drop_all (k_dropped k) c) ks) as [d' er|c' ks'].
        -- destruct IH as (n & f & [(k' & Nk & Ke) F] & Nd & M). exists (S n), f. split; [|split; [exact Nd|]].
           ++ split; [exists k'; split; assumption|]. intros [|m] k'' Lm E; [cbn in E; congruence|]. apply (F m); [lia|exact E].
           ++ refine (message_of_weaken _ _ _ _ _ _ M). intros [X|(m & k'' & Lm & E & D)].
              ** destruct (k_dropped k) as [|g gs] eqn:Eg; [left; exact X|].
                 right. exists 0, k. split; [lia|]. split; [reflexivity|]. rewrite Eg. discriminate.
              ** right. exists (S m), k''. split; [lia|]. split; assumption.
        -- destruct IH as [F ->]. split; [|reflexivity].
           intros [|m] k' Lm E; [cbn in E; congruence|]. apply (F m); [cbn in Lm; lia|exact E].
Qed.
Lemma nth_error_skip : forall (A : Type) n (l : list A) m, nth_error (skipn n l) m = nth_error l (n + m).
Proof. induction n as [|n IH]; intros [|x l] m; cbn [skipn Nat.add nth_error]; auto. destruct m; reflexivity. Qed.
Lemma first_failure_skip : forall ks a n f, all_fine ks a -> first_failure (skipn a ks) n f -> first_failure ks (a + n) f.
Proof.
  intros ks a n f F [(k & Nk & Ke) G]. split.
  - exists k. rewrite nth_error_skip in Nk. split; assumption.
  - intros m k' Lm E. destruct (Nat.lt_ge_cases m a) as [L|L]; [exact (F m k' L E)|].
    apply (G (m - a)); [lia|]. rewrite nth_error_skip. replace (a + (m - a)) with m by lia. exact E.
Qed.
Lemma all_fine_skip : forall ks a b, all_fine ks a -> all_fine (skipn a ks) b -> all_fine ks (a + b).
Proof.
  intros ks a b F G m k L E. destruct (Nat.lt_ge_cases m a) as [L1|L1]; [exact (F m k L1 E)|].
  apply (G (m - a)); [lia|]. rewrite nth_error_skip. replace (a + (m - a)) with m by lia. exact E.
Qed.
Lemma start_part : forall e n d, nth_error (calls_of (prog_start e)) n = Some d -> part_of d = PNetwork.
Proof.
  intros e n d H. apply nth_error_In in H. destruct e; cbn in H; repeat (destruct H as [H|H]; [subst d; reflexivity|]); contradiction.
Qed.
Lemma load_part : forall i n d, nth_error (calls_of (prog_load i)) n = Some d -> part_of d = PStorage.
Proof.
  intros i n d H. apply nth_error_In in H. pose proof (schedule_eq i (EpTcp [] 0%N)) as E. unfold schedule in E.
  change (calls_of prog_init) with [DPid; DRuntime; DSignals] in E. apply app_inv_head in E.
  change (calls_of (prog_start (EpTcp [] 0%N))) with [DBind [] 0%N] in E. apply app_inv_tail in E. rewrite E in H. clear E.
  destruct i as [paths s m u| |paths repass].
  - repeat (apply in_app_or in H; destruct H as [H|H]).
    all: try (apply repeat_spec in H; subst d; reflexivity).
    all: try (apply in_map_iff in H; destruct H as (p & <- & _); reflexivity).
    all: destruct H as [<-|[]]; reflexivity.
  - destruct H as [<-|[<-|[<-|[]]]]; reflexivity.
  - repeat (apply in_app_or in H; destruct H as [H|H]).
    + destruct H as [<-|[]]; reflexivity.
    + apply in_map_iff in H. destruct H as (p & <- & _). reflexivity.
    + destruct repass; [destruct H as [<-|[]]; reflexivity| destruct H].
Qed.
Lemma boot_spec : forall i e ks,
  match boot i e ks with
  | Some (d, er) => exists n f, first_failure ks n f /\ nth_error (schedule i e) n = Some d /\
      message_of d f (dropped_in ks (match part_of d with PStorage => 3 | _ => 0 end) n) er
  | None => all_fine ks (List.length (schedule i e))
  end.
Proof.
  intros i e ks. unfold boot. rewrite <- schedule_eq.
  pose proof (srun_spec prog_init ctx_null ctx_null ks (part_ctx_refl _) covered_init) as A.
  destruct (srun prog_init ctx_null ks) as [d er|c ks1].
  { destruct A as (n & f & F & Nd & M). exists n, f. split; [exact F|]. split.
    - rewrite nth_error_app1; [exact Nd|]. apply nth_error_Some. congruence.
    - assert (part_of d = PInit) as ->.
      { apply nth_error_In in Nd. destruct Nd as [<-|[<-|[<-|[]]]]; reflexivity. }
      refine (message_of_weaken _ _ _ _ _ _ M). intros [X|X]; [congruence|exact X]. }
  destruct A as [A ->]. change (List.length (calls_of prog_init)) with 3 in *.
  pose proof (srun_spec (prog_load i) ctx_null ctx_null (skipn 3 ks) (part_ctx_refl _) (covered_load i)) as B.
  destruct (srun (prog_load i) ctx_null (skipn 3 ks)) as [d er|c2 ks2].
  { destruct B as (n & f & F & Nd & M). exists (3 + n), f. split; [apply first_failure_skip; assumption|]. split.
    - rewrite nth_error_app2 by (cbn; lia). change (List.length (calls_of prog_init)) with 3. replace (3 + n - 3) with n by lia.
      rewrite nth_error_app1; [exact Nd|]. apply nth_error_Some. congruence.
    - rewrite (load_part _ _ _ Nd).
      refine (message_of_weaken _ _ _ _ _ _ M). intros [X|(m & k & Lm & E & D)]; [congruence|].
      rewrite nth_error_skip in E. exists (3 + m), k. split; [lia|]. split; assumption. }
  destruct B as [B ->]. pose proof (all_fine_skip _ _ _ A B) as AB.
  pose proof (srun_spec (prog_start e) c c (skipn (List.length (calls_of (prog_load i))) (skipn 3 ks)) (part_ctx_refl _) (covered_start e c)) as C.
  assert (SK : forall (l : list scall) a, skipn a (skipn 3 l) = skipn (3 + a) l).
  { intros l a. destruct l as [|x1 [|x2 [|x3 l]]]; cbn [skipn Nat.add]; rewrite ?skipn_nil; reflexivity. }
  rewrite SK in *.
  destruct (srun (prog_start e) c (skipn (3 + List.length (calls_of (prog_load i))) ks)) as [d er|c3 ks3].
  { destruct C as (n & f & F & Nd & M). exists (3 + List.length (calls_of (prog_load i)) + n), f.
    split; [apply first_failure_skip; assumption|]. split.
    - rewrite nth_error_app2 by (cbn; lia). change (List.length (calls_of prog_init)) with 3.
      rewrite nth_error_app2 by lia. replace (3 + List.length (calls_of (prog_load i)) + n - 3 - List.length (calls_of (prog_load i))) with n by lia. exact Nd.
    - pose proof (start_part _ _ _ Nd) as Ep. destruct M as [M1 M2]. split; [exact M1|]. intro N.
      destruct (M2 N) as [X|[(_ & X & _)|(_ & X)]]; [left; exact X|congruence|congruence]. }
  destruct C as [C _]. pose proof (all_fine_skip _ _ _ AB C) as ABC.
  rewrite !app_length. change (List.length (calls_of prog_init)) with 3. replace (3 + (List.length (calls_of (prog_load i)) + List.length (calls_of (prog_start e))))
    with (3 + List.length (calls_of (prog_load i)) + List.length (calls_of (prog_start e))) by lia. exact ABC.
Qed.

(** ports are u16 in the code *)
Definition port_fits (d : doing) : Prop := match d with DBind _ p => (p < two64)%N | _ => True end.
Lemma last_colon : forall (h h' a b : bytes), ~ In x3a a -> ~ In x3a b -> h ++ bstr ":" ++ a = h' ++ bstr ":" ++ b -> h = h' /\ a = b.
Proof.
  change (bstr ":") with [x3a]. induction h as [|x h IH]; intros [|y h'] a b A B E; cbn [app] in *.
  - split; [reflexivity|congruence].
  - exfalso. injection E as E1 E2. apply A. rewrite E2. apply in_or_app. right. left. reflexivity.
  - exfalso. injection E as E1 E2. apply B. rewrite <- E2. apply in_or_app. right. left. reflexivity.
  - injection E as -> E. destruct (IH _ _ _ A B E) as [-> ->]. split; reflexivity.
Qed.

Lemma dec_text_colon : forall n s, dec_text n s -> ~ In x3a s.
Proof.
  intros n s (_ & A & _) H. unfold all_digits in A. rewrite Forall_forall in A. specialize (A _ H). cbv in A. destruct A as [_ A]. apply A. reflexivity.
Qed.
Lemma dec_text_inj : forall n m s, dec_text n s -> dec_text m s -> n = m.
Proof. intros n m s (_ & _ & <- & _) (_ & _ & <- & _). reflexivity. Qed.

(** ** The theorems *)

(** The server starts exactly when no step of its start fails, and otherwise reports the first step that fails, with that step's failure *)
Theorem C124_first_failure : forall i e ks,
  (boot i e ks = None <-> all_fine ks (List.length (schedule i e))) /\
  (forall d er, boot i e ks = Some (d, er) ->
     exists n, first_failure ks n (se_kind er) /\ nth_error (schedule i e) n = Some d).
Proof.
  intros i e ks. pose proof (boot_spec i e ks) as H. split; [split|].
  - intro E. rewrite E in H. exact H.
  - intro F. destruct (boot i e ks) as [[d er]|]; [|reflexivity]. exfalso.
    destruct H as (n & f & [(k & Nk & Ke) _] & Nd & _).
    assert (L : n < List.length (schedule i e)) by (apply nth_error_Some; congruence).
    rewrite (F n k L Nk) in Ke. discriminate Ke.
  - intros d er E. rewrite E in H. destruct H as (n & f & F & Nd & [<- _]). exists n. split; assumption.
Qed.

(** The full claim is that the message names the step and its part of the server. It holds when no error was made and dropped before, see the refutation below *)
Theorem C124_message_partial : forall i e ks d er,
  nothing_dropped ks -> boot i e ks = Some (d, er) -> ssl_in_tls d (se_kind er) ->
  serror_str er = opening d ++ words d ++ reason (se_kind er).
Proof.
  intros i e ks d er ND E N. pose proof (boot_spec i e ks) as H. rewrite E in H. destruct H as (n & f & _ & _ & [<- M]).
  assert (NL : forall lo, ~ dropped_in ks lo n).
  { intros lo (m & k & _ & Nk & D). apply D, ND. exact (nth_error_In _ _ Nk). }
  destruct (M N) as [X|[(X & _)|(X & _)]]; [exact X| exfalso; exact (NL _ X)| exfalso; exact (NL _ X)].
Qed.

(** Whatever was dropped, a message about loading never names another step: it is the right one, or lacks the part, the step, or both, and lacks one of them only
    after an error was dropped while loading; the file of a model of an older install is always named; and failures of the network are reported as they should be *)
Theorem C124_never_misleads : forall i e ks d er,
  boot i e ks = Some (d, er) -> ssl_in_tls d (se_kind er) -> part_of d <> PInit ->
  serror_str er = opening d ++ words d ++ reason (se_kind er) \/
  (exists n, first_failure ks n (se_kind er) /\ dropped_in ks 3 n) /\ part_of d = PStorage /\
  (serror_str er = vague ++ words d ++ reason (se_kind er) \/
   (forall p, d <> DOldModel p) /\ (serror_str er = opening d ++ reason (se_kind er) \/ serror_str er = vague ++ reason (se_kind er))).
Proof.
  intros i e ks d er E N NI. pose proof (boot_spec i e ks) as H. rewrite E in H. destruct H as (n & f & F & _ & [<- M]).
  destruct (M N) as [X|[(X & Ep & Y)|(_ & X)]]; [left; exact X| |contradiction].
  right. rewrite Ep in X. split; [exists n; split; assumption|]. split; [exact Ep|exact Y].
Qed.

(** Different steps have different words, so a message with its words identifies the step, down to the file or the port *)
Theorem C124_words : forall d d', port_fits d -> port_fits d' -> words d = words d' -> d = d'.
Proof.
  intros d d' A B E. assert (E' := f_equal (firstn 15) E).
  destruct d as [| | | |p| | | | | | |p| |h n|], d' as [| | | |p'| | | | | | |p'| |h' n'|]; try reflexivity; try (lazy in E'; discriminate E').
  - cbn [words] in E. apply app_inv_head, app_inv_tail in E. congruence.
  - cbn [words] in E. apply app_inv_head, app_inv_tail in E. congruence.
  - cbn [words] in E. apply app_inv_head in E. rewrite !app_assoc in E. apply app_inv_tail in E. rewrite <- !app_assoc in E.
    cbn [port_fits] in A, B. pose proof (dec_u64_text _ A) as TA. pose proof (dec_u64_text _ B) as TB.
    destruct (last_colon _ _ _ _ (dec_text_colon _ _ TA) (dec_text_colon _ _ TB) E) as [-> E2].
    rewrite (dec_text_inj _ _ _ TA (eq_ind_r (dec_text n') TB E2)). reflexivity.
Qed.

(** ** Findings and cases *)
Definition fine : scall := {| k_dropped := []; k_end := None |}.
Definition fails (f : fault) : scall := {| k_dropped := []; k_end := Some f |}.

(** An older install whose log has an event that cannot be applied (an error made and dropped, storage/v1/raw/journal/raw.rs:245) and no recovery entry after it:
    the message says neither that it is about storage nor what was being done. *)
Theorem C124_message_refuted : exists i e ks d er,
  boot i e ks = Some (d, er) /\ ssl_in_tls d (se_kind er) /\ d = DOldLoad /\
  serror_str er = bstr "runtime error: storage error: journal-corrupted" /\
  serror_str er <> opening d ++ words d ++ reason (se_kind er).
Proof.
  exists (OldInstall [] 1 1 1), (EpTcp (bstr "127.0.0.1") 2003),
    [fine; fine; fine; {| k_dropped := [FTxn (bstr "txn-payload-conflict-mismatch")]; k_end := Some (FStorage (bstr "journal-corrupted")) |}].
  eexists; eexists. split; [vm_compute; reflexivity|]. split; [intros t D; discriminate D|]. split; [reflexivity|].
  split; [vm_compute; reflexivity|]. vm_compute. intro D. discriminate D.
Qed.
(** The same event with its recovery entry is skipped; a later failure of the upgrade names its step but no longer the storage *)
Theorem C124_skipped_event_refuted : exists i e ks d er,
  boot i e ks = Some (d, er) /\ d = DUpGns /\ part_of d = PStorage /\
  serror_str er = bstr "runtime error: creating gns; io error: disk full".
Proof.
  exists (OldInstall [] 0 0 0), (EpTcp (bstr "127.0.0.1") 2003),
    [fine; fine; fine; {| k_dropped := [FTxn (bstr "txn-payload-conflict-mismatch")]; k_end := None |}; fine; fine; fine; fine; fine; fails (FIo (bstr "disk full"))].
  do 2 eexists. split; [vm_compute; reflexivity|]. split; [reflexivity|]. split; [reflexivity|]. vm_compute. reflexivity.
Qed.
(** The start sets the part of the server to the network before it binds (engine/mod.rs:129), but no failure of the network is reported with it *)
Theorem C124_network_lost : forall i e ks d er, boot i e ks = Some (d, er) -> part_of d = PNetwork -> ssl_in_tls d (se_kind er) ->
  serror_str er = vague ++ words d ++ reason (se_kind er).
Proof.
  intros i e ks d er E P N. destruct (C124_never_misleads _ _ _ _ _ E N) as [X|(_ & X & _)]; [congruence| |congruence].
  rewrite X. unfold opening, vague. rewrite P. reflexivity.
Qed.

Example pid_file_locked :
  option_map (fun x => serror_str (snd x)) (boot NewInstall (EpTcp (bstr "127.0.0.1") 2003) [fails (FIo (bstr "locked"))])
  = Some (bstr "init system error: locking PID file; io error: locked").
Proof. vm_compute. reflexivity. Qed.
Example second_model_broken :
  option_map (fun x => serror_str (snd x))
    (boot (V2Install [bstr "a"; bstr "b"] false) (EpTcp (bstr "127.0.0.1") 2003) [fine; fine; fine; fine; fine; fails (FStorage (bstr "bad"))])
  = Some (bstr "storage error error: loading model driver in b; storage error: bad").
Proof. vm_compute. reflexivity. Qed.
Example old_model_broken :
  option_map (fun x => serror_str (snd x))
    (boot (OldInstall [bstr "a"] 1 1 1) (EpTcp (bstr "127.0.0.1") 2003) [fine; fine; fine; fine; fails (FStorage (bstr "bad"))])
  = Some (bstr "storage error error: failed to restore model data from journal in `a`; storage error: bad").
Proof. vm_compute. reflexivity. Qed.
Example port_taken :
  option_map (fun x => serror_str (snd x))
    (boot NewInstall (EpBoth (bstr "127.0.0.1") 2003 (bstr "::1") 2004) [fine; fine; fine; fine; fine; fine; fine; fails (FIo (bstr "in use"))])
  = Some (bstr "runtime error: failed to bind to port `::1:2004`; io error: in use").
Proof. vm_compute. reflexivity. Qed.
Example all_goes_well : boot NewInstall (EpTls (bstr "127.0.0.1") 2003) [] = None.
Proof. reflexivity. Qed.
Example tls_fails :
  option_map fst (boot NewInstall (EpTls (bstr "127.0.0.1") 2003) (repeat fine 7 ++ [fails (FOther (bstr "no certificate"))])) = Some DTls.
Proof. vm_compute. reflexivity. Qed.

Example two_files_two_messages : words (DModel (bstr "a")) <> words (DModel (bstr "b")).
Proof. intro E. apply C124_words in E; [discriminate E| exact I| exact I]. Qed.

Print Assumptions C124_first_failure.
Print Assumptions C124_message_partial.
Print Assumptions C124_never_misleads.
Print Assumptions C124_words.
Print Assumptions C124_message_refuted.
Print Assumptions C124_skipped_event_refuted.
Print Assumptions C124_network_lost.
