(** C122: a benchmark on a model of its own gets the answers it expects. *)
From Coq Require Import Strings.String List NArith Bool Arith Lia Permutation Sorting.Sorted.
From Verif Require Import Bytes AMap DataModel CodecModel NumModel NumProofs ConfigModel ArgsModel BenchArgsModel BenchArgsProps NetModel NetProofs NetProps GnsModel RowModel RowSpec RowTable RowProps
  LexModel LexSpec LexProofs ParseModel ParseSpec DdlModel DdlSpec ExecModel WholeModel WireModel WireSpec WireProofs WirePerform WireTableProps ConcModel ConcSpec ConcProofs ConcProps BenchRunModel.
Import ListNotations.
Local Open Scope string_scope.
Local Open Scope list_scope.
Local Open Scope N_scope.

(** the answer that is no mismatch, bench.rs:258, 267-272, 288, 296: [Response::Empty], or [Response::Row] with just these two values, whose types
    are compared too *)
Definition bexpects (p : bphase) (key : bytes) : result :=
  match p with
  | PhSelect => ResRow [CBin key; CQw QU8 0]
  | _ => ResEmpty
  end.

(** ** The texts *)
(** the statements that are meant *)
Definition bwhere (key : bytes) : where_ := [(bstr "un", (OpEq, LBin key))].
Definition badd : list assign := [mk_as (bstr "pw") AAdd (LUInt 1)].
Definition bmeant (p : bphase) (key : bytes) : rstmt :=
  match p with
  | PhInsert => RInsert (InsTuple [CBin key; CQw QU64 0])
  | PhSelect => RSelect (bwhere key) None
  | PhUpdate => RUpdate (bwhere key) badd
  | PhDelete => RDelete (bwhere key)
  end.
(** the model: key column [un], binary, and [pw], an integer of 8 bits *)
Definition blay (uuid : N) : layout := mk_layout uuid (bstr "un") TsBin [(bstr "un", mk_field false [TsBin]); (bstr "pw", mk_field false [TsU8])].
(** Every query says the statement meant: for every key, on a connection whose current space is [bench], with the parameters in their encoding. *)
Lemma text_is q ts : lex (fun _ => true) (fun _ => None) q [] = LexOk ts -> toks q ts.
Proof. apply (lex_text (fun _ => true) (fun _ => None)). Qed.
Lemma bq_reads u8 fl p key es : len key < two64 -> Forall2 encodes (snd (bquery p key)) es ->
  reads_as u8 fl (fst (bquery p key)) (concat es)
    match p with
    | PhInsert => [kst KsInsert; kmis KmInto; TId (bstr "bench"); TSym SOpenParen; TLit (LBin key); TSym SComma; TLit (LUInt 0); TSym SCloseParen]
    | PhSelect => [kst KsSelect; TSym SMul; kmis KmFrom; TId (bstr "bench"); kmis KmWhere; TId (bstr "un"); TSym SAssign; TLit (LBin key)]
    | PhUpdate => [kst KsUpdate; TId (bstr "bench"); kmis KmSet; TId (bstr "pw"); TSym SAdd; TSym SAssign; TLit (LUInt 1); kmis KmWhere; TId (bstr "un"); TSym SAssign; TLit (LBin key)]
    | PhDelete => [kst KsDelete; kmis KmFrom; TId (bstr "bench"); kmis KmWhere; TId (bstr "un"); TSym SAssign; TLit (LBin key)]
    end.
Proof.
  intros LK E.
  assert (OK : Forall2 (fun v e => pval_ok u8 fl v /\ encodes v e) (snd (bquery p key)) es).
  { assert (A : Forall (pval_ok u8 fl) (snd (bquery p key))) by (destruct p; cbn [bquery snd]; repeat constructor; assumption).
    clear - A E. revert es E. induction A as [|v l V A IH]; intros es E; inversion E; subst; constructor; auto. }
  destruct (encodes_params u8 fl _ _ OK (List.length (snd (bquery p key))) [] (le_n _) (or_introl eq_refl)) as (ts & PS & CA). rewrite app_nil_r in PS.
  assert (TS : ts = match p with PhInsert => [TLit (LBin key); TLit (LUInt 0)] | PhUpdate => [TLit (LUInt 1); TLit (LBin key)] | _ => [TLit (LBin key)] end).
  { destruct p; cbn [bquery snd] in CA; repeat match goal with H : Forall2 _ (_ :: _) _ |- _ => inversion H; subst; clear H | H : Forall2 _ [] _ |- _ => inversion H; subst; clear H | H : carries _ _ _ |- _ => cbn [carries] in H; subst end; reflexivity. }
  subst ts. destruct p; cbn [bquery fst snd] in *.
  - eexists _, _. split; [apply text_is; vm_compute; reflexivity|]. split; [exact PS|reflexivity].
  - eexists _, _. split; [apply text_is; vm_compute; reflexivity|]. split; [exact PS|reflexivity].
  - eexists _, _. split; [apply text_is; vm_compute; reflexivity|]. split; [exact PS|reflexivity].
  - eexists _, _. split; [apply text_is; vm_compute; reflexivity|]. split; [exact PS|reflexivity].
Qed.
Lemma bwhere_ok key : where_ok (bwhere key).
Proof. split; [discriminate|]. repeat constructor. intros []. Qed.
Theorem C122_read u8 fl gn p key es : len key < two64 -> Forall2 encodes (snd (bquery p key)) es ->
  says u8 fl gn (Some (bstr "bench")) (fst (bquery p key)) (concat es) (SayData bench_id (bmeant p key)).
Proof.
  intros LK E. pose proof (bq_reads u8 fl p key es LK E) as R. econstructor; [exact R|]. clear R E.
  assert (NM : names (Some (bstr "bench")) [TId (bstr "bench")] bench_id) by (apply names_short; reflexivity).
  destruct p; cbn [bmeant].
  - apply ds_insert; [cbn; lia|]. apply (wfi _ _ _ _ [TId (bstr "bench")] bench_id _ _ NM). apply wfi_tuple.
    eapply tvs_more; [apply rv_val; apply lv_lit|]. apply tvs_one. apply rv_val. apply (lv_lit _ _ _ (LUInt 0)).
  - apply (ds_select gn _ None [TSym SMul] [TId (bstr "bench")] bench_id (bwhere key) 0); [left; reflexivity|discriminate|exact NM|apply bwhere_ok|lia].
  - apply (ds_update gn (Some (bstr "bench")) ([TId (bstr "bench")] ++ kmis KmSet :: set_toks badd ++ kmis KmWhere :: where_toks (bwhere key)) 0 bench_id badd (bwhere key)); [lia|]. apply (wfu _ [TId (bstr "bench")] bench_id badd (bwhere key) NM); [discriminate|apply bwhere_ok].
  - apply (ds_delete gn (Some (bstr "bench")) (kmis KmFrom :: [TId (bstr "bench")] ++ kmis KmWhere :: where_toks (bwhere key)) 0 bench_id (bwhere key)); [lia|]. apply (wfd _ [TId (bstr "bench")] bench_id (bwhere key) NM). apply bwhere_ok.
Qed.
Example C122_read_example : exists es, Forall2 encodes (snd (bquery PhUpdate (bstr "0000042"))) es /\ len (bstr "0000042") < two64 /\
  concat es = x02 :: bstr "1" ++ LF :: x05 :: bstr "7" ++ LF :: bstr "0000042".
Proof.
  exists [x02 :: bstr "1" ++ [LF]; x05 :: bstr "7" ++ LF :: bstr "0000042"]. split; [|split; [reflexivity|reflexivity]].
  assert (D : forall n, (n < 10)%N -> dec_text n (dec_u64 n)) by (intros n L; apply dec_u64_text; unfold two64; lia).
  constructor; [apply EnUInt; exact (D 1 eq_refl)|]. constructor; [apply EnBin; exact (D 7 eq_refl)|]. constructor.
Qed.

(** ** The answers of the table *)
(** the row as it is inserted and as it is after the UPDATE *)
Definition brow (n : N) : rfields := [(bstr "pw", CQw QU8 n)].
(** what is in the table for a key when the query of a phase arrives *)
Definition bfound (p : bphase) : option rfields :=
  match p with PhInsert => None | PhSelect | PhUpdate => Some (brow 0) | PhDelete => Some (brow 1) end.
Lemma bupdate farith uuid : update_row farith (lo_fields (blay uuid)) (brow 0) badd = (brow 1, RoOk).
Proof. vm_compute. reflexivity. Qed.
Lemma bwhere_asks uuid key : asked (blay uuid) (bwhere key) = Some (PkBin key).
Proof. reflexivity. Qed.
(** With that in the table the answer (of C113) is the one expected. *)
Theorem C122_answer farith uuid T p key a :
  T (PkBin key) = bfound p -> due farith (blay uuid) T (bmeant p key) a -> a = Some (bexpects p key).
Proof.
  intros F D. destruct p; cbn [bmeant due bexpects bfound] in *; try rewrite bwhere_asks, F in D.
  - destruct D as (D & _). apply D; [|exact F]. split; [reflexivity|]. intros k f G. unfold blay in G. cbn [lo_fields aget] in G.
    destruct (bseq k (bstr "un")) eqn:E1; [apply bseq_eq in E1; subst k; injection G as <-; exists (CBin key); split; [reflexivity|right; apply conf_bin]|].
    destruct (bseq k (bstr "pw")) eqn:E2; [|discriminate G]. apply bseq_eq in E2. subst k. injection G as <-. exists (CQw QU64 0). split; [reflexivity|]. right.
    apply (conf_num _ QU8); [reflexivity|vm_compute; reflexivity].
  - destruct D as (D & _). destruct D as (vals & -> & SH); [repeat constructor; cbn; tauto|]. unfold shows, wanted in SH. cbn [blay lo_fields map fst lo_pk] in SH.
    inversion SH as [|? v1 ? l1 H1 SH']; subst. inversion SH' as [|? v2 ? l2 H2 SH'']; subst. inversion SH''; subst.
    destruct H1 as [(_ & ->)|(N & _)]; [|congruence]. destruct H2 as [(X & _)|(_ & X)]; [discriminate X|]. cbn in X. injection X as <-. reflexivity.
  - rewrite bupdate in D. exact D.
  - exact D.
Qed.
Example C122_answer_example : bfound PhSelect = Some (brow 0) /\ bexpects PhSelect (bstr "07") = ResRow [CBin (bstr "07"); CQw QU8 0] /\
  ins_row (blay 5) (InsTuple [CBin (bstr "07"); CQw QU64 0]) = brow 0 /\ ins_key (blay 5) (InsTuple [CBin (bstr "07"); CQw QU64 0]) = PkBin (bstr "07").
Proof. repeat split; vm_compute; reflexivity. Qed.

(** The main thread's query makes that model. *)
Theorem C122_model u8 fl gn cs uuid : exists fs d, says u8 fl gn cs q_model [] (SaySchema (SCreateModel bench_id fs d false)) /\ process_create_model uuid fs d = inr (blay uuid).
Proof.
  destruct (dispatch (gn_text gn) (gn_bin gn) (gn_now gn) true cs
    [kst KsCreate; kmis KmModel; TId (bstr "bench"); TSym SPeriod; TId (bstr "bench"); TSym SOpenParen; TId (bstr "un"); TSym SColon; TId (bstr "binary"); TSym SComma;
     TId (bstr "pw"); TSym SColon; TId (bstr "uint8"); TSym SCloseParen]) as [r| | | |] eqn:D; vm_compute in D; try discriminate D.
  injection D as <-. eexists _, _. split.
  - eapply sy_schema; [apply (reads_lex u8 fl); apply (lex_text u8 fl); apply text_is; vm_compute; reflexivity|].
    apply (dispatch_schema gn true cs). vm_compute. reflexivity.
  - vm_compute. reflexivity.
Qed.

(** ** All workers at once *)
Section Together.
Variables V F : Type.
Variable app : F -> V -> V * bool.
Variable ord : list nat -> list nat.
Variables (row0 row1 : V) (inc : F).
Hypothesis inc_ok : app inc row0 = (row1, true).
(** the statement of a phase for a key, and the answer *)
Definition ask (p : bphase) (k : pkey) : cstmt V F :=
  match p with PhInsert => CIns k row0 | PhSelect => CSel k | PhUpdate => CUpd k inc | PhDelete => CDel k end.
Definition good (p : bphase) : cans V := match p with PhSelect => CArow row0 | _ => CAok end.
Definition rank (p : bphase) : nat := match p with PhInsert => 0 | PhSelect => 1 | PhUpdate => 2 | PhDelete => 3 end%nat.
(** The statements of a benchmark (C105, C106): each phase asks once for each of the keys, in any order and by any workers, and begins when all statements of the
    phases before it are answered. *)
Record phases (n : N) (key : N -> pkey) (c : cst V F) : Prop := {
  ph_only : forall i t, nth_error (c_tasks c) i = Some t -> exists p x, 1 <= x <= n /\ ct_st t = ask p (key x);
  ph_once : forall i j t u, nth_error (c_tasks c) i = Some t -> nth_error (c_tasks c) j = Some u -> ct_st t = ct_st u -> i = j;
  ph_turn : forall i t p x q y, nth_error (c_tasks c) i = Some t -> ct_st t = ask q (key x) -> (rank p < rank q)%nat -> 1 <= y <= n ->
    exists j u a m, nth_error (c_tasks c) j = Some u /\ ct_st u = ask p (key y) /\ ct_pc u = PDone a m /\ (m < ct_inv t)%nat }.

Definition skey (s : cstmt V F) : pkey := match s with CIns k _ | CUpd k _ | CDel k | CSel k => k | CAll => PkNull end.
Definition four (k : pkey) : list (cstmt V F) := [CIns k row0; CSel k; CUpd k inc; CDel k].
Definition onk (k : pkey) (e : eff V F) : bool := pkey_eqb (skey (ef_st e)) k.
Lemma ask_nth p k : nth_error (four k) (rank p) = Some (ask p k).
Proof using. destruct p; reflexivity. Qed.
Lemma ask_key p k : skey (ask p k) = k.
Proof using. destruct p; reflexivity. Qed.
Lemma ask_not_all p k : ask p k <> CAll.
Proof using. destruct p; discriminate. Qed.
Lemma of_rank r : (r < 4)%nat -> exists p, rank p = r.
Proof using. intros H. destruct r as [|[|[|[|r]]]]; [exists PhInsert|exists PhSelect|exists PhUpdate|exists PhDelete|lia]; reflexivity. Qed.
Lemma four_inj k i j s : nth_error (four k) i = Some s -> nth_error (four k) j = Some s -> i = j.
Proof using.
  destruct i as [|[|[|[|i]]]]; destruct j as [|[|[|[|j]]]]; cbn; intros A B; try reflexivity; try (rewrite <- A in B; discriminate B); try (destruct i; discriminate A); destruct j; discriminate B.
Qed.
Lemma in_firstn {A} (x : A) n l : In x (firstn n l) <-> exists i, (i < n)%nat /\ nth_error l i = Some x.
Proof using.
  revert l. induction n as [|n IH]; intros [|y l]; cbn [firstn In].
  - split; [intros []|intros (i & H & _); lia].
  - split; [intros []|intros (i & H & _); lia].
  - split; [intros []|intros (i & _ & H); destruct i; discriminate H].
  - split.
    + intros [->|H]; [exists 0%nat; split; [lia|reflexivity]|]. apply IH in H as (i & L & H). exists (S i). split; [lia|exact H].
    + intros ([|i] & L & H); [left; injection H as ->; reflexivity|]. right. apply IH. exists i. split; [lia|exact H].
Qed.
Lemma nth_firstn {A} n : forall (l : list A) i x, nth_error (firstn n l) i = Some x -> nth_error l i = Some x.
Proof using.
  induction n as [|n IH]; intros l i x H; [destruct i; discriminate H|]. destruct l as [|y l]; [destruct i; discriminate H|].
  destruct i as [|i]; [exact H|]. exact (IH l i x H).
Qed.
(** a table at a key is moved only by the statements of that key *)
Lemma after_other s T k : skey s <> k -> s <> CAll -> after app T s k = T k.
Proof using.
  intros N NA. assert (K : forall x, pkey_eqb k (skey s) = true -> kset T (skey s) x k = T k) by (intros x E; apply pkey_eqb_eq in E; congruence).
  assert (E : pkey_eqb k (skey s) = false) by (destruct (pkey_eqb k (skey s)) eqn:E; [apply pkey_eqb_eq in E; congruence|reflexivity]).
  destruct s as [q x|q f|q|q|]; cbn [skey after] in *; try reflexivity.
  - destruct (T q); [reflexivity|]. unfold kset. rewrite E. reflexivity.
  - destruct (T q); [|reflexivity]. unfold kset. rewrite E. reflexivity.
  - unfold kset. rewrite E. reflexivity.
Qed.
Lemma after_same s T T' : s <> CAll -> T (skey s) = T' (skey s) -> after app T s (skey s) = after app T' s (skey s).
Proof using.
  intros NA E. destruct s as [q x|q f|q|q|]; cbn [skey after] in *; try exact E.
  - rewrite <- E. destruct (T q) eqn:G; [congruence|]. unfold kset. rewrite pkey_eqb_refl. reflexivity.
  - rewrite <- E. destruct (T q) eqn:G; [|congruence]. unfold kset. rewrite pkey_eqb_refl. reflexivity.
  - unfold kset. rewrite pkey_eqb_refl. reflexivity.
Qed.
Lemma final_key k L : Forall (fun e => ef_st e <> CAll) L -> forall T T', T k = T' k ->
  final app T L k = fold_left (after app) (map ef_st (filter (onk k) L)) T' k.
Proof using.
  intros NA. induction NA as [|e L H NA IH]; intros T T' E; [exact E|]. unfold final. cbn [fold_left filter map]. unfold final in IH. unfold onk at 1.
  destruct (pkey_eqb (skey (ef_st e)) k) eqn:Q.
  - apply pkey_eqb_eq in Q. cbn [map fold_left]. apply IH. rewrite <- Q. apply after_same; [exact H|]. rewrite Q. exact E.
  - apply IH. rewrite after_other; [exact E| |exact H]. intros D. apply pkey_eqb_eq in D. congruence.
Qed.
(** what the first statements of a key leave there *)
Lemma four_final k p : fold_left (after app) (firstn (rank p) (four k)) (fun _ => None) k =
  match p with PhInsert => None | PhSelect | PhUpdate => Some row0 | PhDelete => Some row1 end.
Proof using inc_ok.
  assert (K : forall (T : tab V) x, kset T k x k = x) by (intros T x; unfold kset; rewrite pkey_eqb_refl; reflexivity).
  destruct p; cbn [rank firstn four fold_left after]; try reflexivity; rewrite ?K; try reflexivity. rewrite inc_ok. reflexivity.
Qed.
Lemma sorted_split (L1 : list (eff V F)) e L2 x : StronglySorted le (map ef_at (L1 ++ e :: L2)) -> In x L2 -> (ef_at e <= ef_at x)%nat.
Proof using.
  induction L1 as [|y L1 IH]; cbn [map List.app]; intros SS I; inversion SS as [|? ? SS' FA]; subst; [|exact (IH SS' I)].
  rewrite Forall_forall in FA. apply FA. apply in_map. exact I.
Qed.

Lemma prefix_four n key c L : phases n key c -> explains app c L ->
  forall L1 L2, L = L1 ++ L2 -> forall x, 1 <= x <= n -> map ef_st (filter (onk (key x)) L1) = firstn (List.length (filter (onk (key x)) L1)) (four (key x)).
Proof using.
  intros PH (_ & SS & ND & EF & ALL & _). induction L1 as [|e L1 IH] using rev_ind; intros L2 EL x X; [reflexivity|].
  rewrite <- app_assoc in EL. cbn [List.app] in EL. specialize (IH (e :: L2) EL x X). rewrite filter_app. cbn [filter].
  destruct (onk (key x) e) eqn:OE; [|rewrite app_nil_r; exact IH]. unfold onk in OE. apply pkey_eqb_eq in OE.
  assert (IE : In e L) by (rewrite EL; apply in_or_app; right; left; reflexivity).
  destruct (EF e IE) as (_ & t & NT & ST & (IV & _) & _). destruct (ph_only _ _ _ PH _ _ NT) as (p & y & Y & SP). rewrite ST in SP.
  assert (KY : key y = key x) by (rewrite <- OE, SP, ask_key; reflexivity). rewrite KY in SP.
  set (f := filter (onk (key x)) L1) in *.
  assert (LE : (List.length f <= 4)%nat).
  { assert (Q : List.length (map ef_st f) = List.length (firstn (List.length f) (four (key x)))) by (rewrite <- IH; reflexivity). rewrite map_length, firstn_length in Q. cbn [four List.length] in Q. lia. }
  assert (EQ : List.length f = rank p).
  { destruct (Nat.lt_trichotomy (List.length f) (rank p)) as [LT|[E|GT]]; [exfalso|exact E|exfalso].
    - assert (R4 : (rank p < 4)%nat) by (destruct p; cbn; lia). destruct (of_rank (List.length f)) as [q RQ]; [lia|].
      assert (SA : ct_st t = ask p (key x)) by congruence. destruct (ph_turn _ _ _ PH _ t q x p x NT SA ltac:(lia) X) as (j & u & a & m & NU & SU & PU & MU).
      assert (NC : ct_st u <> CAll) by (rewrite SU; apply ask_not_all). pose proof (ALL j u a m NU PU NC) as IJ. apply in_map_iff in IJ as (e' & EJ & IE').
      destruct (EF e' IE') as (_ & u' & NU' & SU' & _ & AN). rewrite EJ, NU in NU'. injection NU' as <-. destruct (AN a m PU) as [_ AT].
      assert (I1 : In e' L1).
      { rewrite EL in IE'. apply in_app_or in IE' as [I|[->|I]]; [exact I|lia|]. rewrite EL in SS. pose proof (sorted_split _ _ _ _ SS I). lia. }
      assert (IF : In (ef_st e') (map ef_st f)).
      { apply in_map. apply filter_In. split; [exact I1|]. unfold onk. rewrite <- SU', SU, ask_key. apply pkey_eqb_refl. }
      rewrite IH in IF. apply in_firstn in IF as (i & LI & NI). rewrite <- SU', SU in NI. pose proof (ask_nth q (key x)) as NQ. pose proof (four_inj _ _ _ _ NI NQ). lia.
    - assert (IF : In (ask p (key x)) (map ef_st f)) by (rewrite IH; apply in_firstn; exists (rank p); split; [exact GT|apply ask_nth]).
      apply in_map_iff in IF as (e' & SE & IF). apply filter_In in IF as [I1 _].
      assert (IE' : In e' L) by (rewrite EL; apply in_or_app; left; exact I1). destruct (EF e' IE') as (_ & u & NU & SU & _).
      assert (ID : ef_id e' = ef_id e) by (apply (ph_once _ _ _ PH _ _ u t NU NT); congruence).
      rewrite EL, map_app in ND. cbn [map] in ND. apply NoDup_remove_2 in ND. apply ND. rewrite <- ID. apply in_or_app. left. apply in_map. exact I1. }
  rewrite map_app, app_length, IH, EQ. cbn [map List.length]. rewrite SP. clear. destruct p; reflexivity.
Qed.

Lemma together n key ls c : crun app ord cst0 ls = Some c -> phases n key c ->
  forall i t p x a m, nth_error (c_tasks c) i = Some t -> ct_st t = ask p (key x) -> 1 <= x <= n -> ct_pc t = PDone a m -> a = good p.
Proof using inc_ok.
  intros R PH i t p x a m NT ST X PT. destruct (C116_one_order V F app ord ls c R) as [L EX]. pose proof EX as (IT & SS & ND & EF & ALL & _).
  assert (NC : ct_st t <> CAll) by (rewrite ST; apply ask_not_all). pose proof (ALL i t a m NT PT NC) as II. apply in_map_iff in II as (e & EI & IE).
  destruct (EF e IE) as (_ & t' & NT' & ST' & _ & AN). rewrite EI, NT in NT'. injection NT' as <-. destruct (AN a m PT) as [-> _].
  apply in_split in IE as (L1 & L2 & EL).
  assert (AE : forall L1 T, in_turn app T (L1 ++ e :: L2) -> ef_ans e = answer app (final app T L1) (ef_st e)).
  { clear. induction L1 as [|y L1 IH]; intros T H; cbn [List.app in_turn] in H; destruct H as [A H]; [exact A|]. apply (IH (after app T (ef_st y))). exact H. }
  rewrite EL in IT. rewrite (AE _ _ IT). rewrite <- ST', ST.
  pose proof (prefix_four n key c L PH EX L1 (e :: L2) EL x X) as P1. pose proof (prefix_four n key c L PH EX (L1 ++ [e]) L2) as P2. rewrite <- app_assoc in P2. specialize (P2 EL x X).
  assert (ON : onk (key x) e = true) by (unfold onk; rewrite <- ST', ST, ask_key; apply pkey_eqb_refl).
  rewrite filter_app in P2. cbn [filter] in P2. rewrite ON in P2. rewrite map_app, app_length in P2. cbn [map List.length] in P2. rewrite P1 in P2.
  set (f := List.length (filter (onk (key x)) L1)) in *. rewrite <- ST', ST in P2.
  assert (FE : f = rank p).
  { assert (NF : nth_error (firstn f (four (key x)) ++ [ask p (key x)]) f = nth_error (firstn (f + 1) (four (key x))) f) by (rewrite P2; reflexivity).
    assert (LF : List.length (firstn f (four (key x))) = f) by (rewrite <- P1, map_length; reflexivity).
    rewrite nth_error_app2 in NF by lia. rewrite LF, Nat.sub_diag in NF. cbn [nth_error] in NF. symmetry in NF.
    apply (four_inj (key x) f (rank p) (ask p (key x))); [|apply ask_nth]. exact (nth_firstn _ _ _ _ NF). }
  rewrite FE in P1.
  assert (FK : final app (fun _ => None) L1 (key x) = match p with PhInsert => None | PhSelect | PhUpdate => Some row0 | PhDelete => Some row1 end).
  { rewrite (final_key (key x) L1) with (T' := fun _ => None); [rewrite P1; apply four_final| |reflexivity].
    apply Forall_forall. intros e' I. apply (EF e'). rewrite EL. apply in_or_app. left. exact I. }
  destruct p; cbn [ask answer good]; rewrite FK; try reflexivity. rewrite inc_ok. reflexivity.
Qed.
End Together.

(** A benchmark under way: [pos] tells the phase and the position of each statement begun so far. Positions are those from 1 to the row count, none is asked for twice in a
    phase, and a phase begins when all positions of the phases before it are answered (C105, C106). *)
Record bschedule (cfg : bcfg) (pos : nat -> bphase * N) (c : cst rfields (list assign)) : Prop := {
  bs_ask : forall i t, nth_error (c_tasks c) i = Some t -> 1 <= snd (pos i) <= b_rows cfg /\
    ct_st t = ask rfields (list assign) (brow 0) badd (fst (pos i)) (PkBin (bkey cfg (snd (pos i))));
  bs_once : forall i j t u, nth_error (c_tasks c) i = Some t -> nth_error (c_tasks c) j = Some u -> pos i = pos j -> i = j;
  bs_turn : forall i t p y, nth_error (c_tasks c) i = Some t -> (rank p < rank (fst (pos i)))%nat -> 1 <= y <= b_rows cfg ->
    exists j u a m, nth_error (c_tasks c) j = Some u /\ pos j = (p, y) /\ ct_pc u = PDone a m /\ (m < ct_inv t)%nat }.
Lemma ask_inj p q k l : ask rfields (list assign) (brow 0) badd p k = ask rfields (list assign) (brow 0) badd q l -> p = q /\ k = l.
Proof. destruct p, q; cbn [ask]; intros H; try discriminate H; injection H as H; auto. Qed.
(** For every accepted configuration and every interleaving of its statements with each other and with the writer of batches: what is answered is what is expected. *)
Theorem C122_together flog env cpus argv cfg farith uuid ord ls c pos :
  (forall n k, n < two64 -> 10 ^ k <= n -> k <= flog n) ->
  bparse flog env cpus argv = inl (BRun cfg) ->
  crun (srv_app farith (lo_fields (blay uuid))) ord cst0 ls = Some c -> bschedule cfg pos c ->
  forall i t a m, nth_error (c_tasks c) i = Some t -> ct_pc t = PDone a m ->
    a = match fst (pos i) with PhSelect => CArow (brow 0) | _ => CAok end.
Proof.
  intros LG BP R BS i t a m NT PT. destruct (bs_ask _ _ _ BS _ _ NT) as [X ST].
  assert (INJ : forall x y, 1 <= x <= b_rows cfg -> 1 <= y <= b_rows cfg -> bkey cfg x = bkey cfg y -> x = y).
  { intros x y LX LY E. exact (proj2 (C121_keys flog env cpus argv cfg LG BP x LX) y LY E). }
  apply (together rfields (list assign) (srv_app farith (lo_fields (blay uuid))) ord (brow 0) (brow 1) badd) with (n := b_rows cfg) (key := fun x => PkBin (bkey cfg x)) (ls := ls) (c := c)
    (i := i) (t := t) (x := snd (pos i)) (m := m); try assumption.
  - unfold srv_app. rewrite bupdate. reflexivity.
  - constructor.
    + intros j u NU. destruct (bs_ask _ _ _ BS _ _ NU) as [Y SU]. exists (fst (pos j)), (snd (pos j)). auto.
    + intros j k u v NU NV E. destruct (bs_ask _ _ _ BS _ _ NU) as [Y SU]. destruct (bs_ask _ _ _ BS _ _ NV) as [Z SV]. rewrite SU, SV in E.
      apply ask_inj in E as [E1 E2]. injection E2 as E2. apply INJ in E2; [|exact Y|exact Z]. apply (bs_once _ _ _ BS j k u v NU NV).
      rewrite (surjective_pairing (pos j)), (surjective_pairing (pos k)), E1, E2. reflexivity.
    + intros j u p x q y NU SU RK LY. destruct (bs_ask _ _ _ BS _ _ NU) as [Y SU']. rewrite SU in SU'. apply ask_inj in SU' as [-> _].
      destruct (bs_turn _ _ _ BS j u p y NU RK LY) as (j' & u' & a' & m' & NU' & PJ & PU & MU). exists j', u', a', m'. destruct (bs_ask _ _ _ BS _ _ NU') as [_ SU'].
      rewrite PJ in SU'. auto.
Qed.
(** two rows, two workers: both INSERTs mixed, a batch written, both SELECTs mixed, an UPDATE under way *)
Definition rx_cfg : bcfg := mk_bcfg (bstr "127.0.0.1") 2003 [] 2 1 2 Rookie 32.
Definition rx_ask (p : bphase) (x : N) : clab rfields (list assign) := LStart (ask rfields (list assign) (brow 0) badd p (PkBin (bkey rx_cfg x))).
Definition rx_ls : list (clab rfields (list assign)) :=
  [rx_ask PhInsert 1; rx_ask PhInsert 2; LGo 0; LGo 1; LGo 1; LGo 0; LGo 1; LFlush; LGo 0; LEnd; rx_ask PhSelect 2; LGo 2; rx_ask PhSelect 1; LFlush; LGo 3; LGo 3; LGo 2; rx_ask PhUpdate 1; LGo 4]%nat.
Definition rx_pos (i : nat) : bphase * N := nth i [(PhInsert, 1); (PhInsert, 2); (PhSelect, 2); (PhSelect, 1); (PhUpdate, 1)] (PhDelete, 7).
Definition rx_run : option (cst rfields (list assign)) := crun (srv_app (fun _ _ _ => 0) (lo_fields (blay 5))) (fun l => l) cst0 rx_ls.
Lemma rx_tasks : option_map (@c_tasks rfields (list assign)) rx_run = Some
  [mk_ct (ask rfields (list assign) (brow 0) badd PhInsert (PkBin (bstr "1"))) 0 (PDone CAok 8); mk_ct (ask rfields (list assign) (brow 0) badd PhInsert (PkBin (bstr "2"))) 1 (PDone CAok 6);
   mk_ct (ask rfields (list assign) (brow 0) badd PhSelect (PkBin (bstr "2"))) 10 (PDone (CArow (brow 0)) 16); mk_ct (ask rfields (list assign) (brow 0) badd PhSelect (PkBin (bstr "1"))) 12 (PDone (CArow (brow 0)) 15);
   mk_ct (ask rfields (list assign) (brow 0) badd PhUpdate (PkBin (bstr "1"))) 17 (PUpdRow 1)].
Proof. vm_compute. reflexivity. Qed.
Example C122_together_example : exists c, rx_run = Some c /\ bschedule rx_cfg rx_pos c /\
  bparse ilog (Some []) 4 (cl ["sky-bench"; "--rowcount=2"; "--threads=2"; "--engine=rookie"]) = inl (BRun rx_cfg).
Proof.
  pose proof rx_tasks as T. destruct rx_run as [c|]; [|discriminate T]. exists c. split; [reflexivity|]. cbn [option_map] in T. injection T as T.
  split; [|vm_compute; reflexivity]. constructor; rewrite T.
  - intros i t H. do 5 (destruct i as [|i]; [injection H as <-; split; [vm_compute; split; intros D; discriminate D|vm_compute; reflexivity]|]). destruct i; discriminate H.
  - intros i j t u A B E. do 5 (destruct i as [|i]; [do 5 (destruct j as [|j]; [try reflexivity; vm_compute in E; discriminate E|]); destruct j; discriminate B|]). destruct i; discriminate A.
  - intros i t p y H RK LY. assert (Y : y = 1 \/ y = 2) by (change (b_rows rx_cfg) with 2 in LY; lia).
    assert (P : forall q, (rank p < rank q)%nat -> q = PhSelect \/ q = PhUpdate -> p = PhInsert \/ (p = PhSelect /\ q = PhUpdate)).
    { intros q L [->| ->]; destruct p; cbn in L; try lia; auto. }
    do 5 (destruct i as [|i]; [injection H as <-; change (fst (rx_pos _)) with PhInsert in RK || change (fst (rx_pos _)) with PhSelect in RK || change (fst (rx_pos _)) with PhUpdate in RK;
      try (destruct p; cbn in RK; lia); destruct (P _ RK ltac:(auto)) as [->|[-> ?]]; try discriminate; destruct Y as [->| ->];
      first [exists 0%nat; eexists _, _, _; split; [reflexivity|]; split; [reflexivity|]; split; [reflexivity|]; cbn; lia
            |exists 1%nat; eexists _, _, _; split; [reflexivity|]; split; [reflexivity|]; split; [reflexivity|]; cbn; lia
            |exists 2%nat; eexists _, _, _; split; [reflexivity|]; split; [reflexivity|]; split; [reflexivity|]; cbn; lia
            |exists 3%nat; eexists _, _, _; split; [reflexivity|]; split; [reflexivity|]; split; [reflexivity|]; cbn; lia]|]).
    destruct i; discriminate H.
Qed.

Print Assumptions C122_read.
Print Assumptions C122_answer.
Print Assumptions C122_model.
Print Assumptions C122_together.
