(** The parsers of schema and system statements: C60 (a statement is accepted exactly as it is written,
    and the parser reads nothing outside it). *)
From Coq Require Import Strings.String List NArith Bool Arith Lia.
From Verif Require Import Bytes DataModel CodecModel TypeModel GnsModel RowModel LexModel LexSpec
  ParseModel ParseSpec ParseProofs DdlModel DdlSpec DdlStmt DdlAll.
Import ListNotations.

(** C60. CREATE SPACE, ALTER SPACE, DROP SPACE, ALTER MODEL, DROP MODEL: accepted exactly when the tokens
    are such a statement, as the statement they are. *)
Theorem C60_space_statements ts st :
  (create_space_of ts = POk st <-> wf_create_space ts st) /\
  (alter_space_of ts = POk st <-> wf_alter_space ts st) /\
  (drop_space_of ts = POk st <-> wf_drop_space ts st).
Proof. split; [apply create_space_iff|]. split; [apply alter_space_iff | apply drop_space_iff]. Qed.
Theorem C60_model_statements ts st :
  (alter_model_of ts = POk st <-> wf_alter_model ts st) /\
  (drop_model_of ts = POk st <-> wf_drop_model ts st).
Proof. split; [apply alter_model_iff | apply drop_model_iff]. Qed.

(** C60. CREATE MODEL: the same for statements of at least ten tokens. What is missing: the shortest
    statement, with one column and no property, has nine. *)
Theorem C60_create_model_partial ts st : create_model_of ts = POk st <-> 10 <= length ts /\ wf_create_model ts st.
Proof. apply create_model_iff. Qed.
Theorem C60_short_create_model_refused ts st : wf_create_model ts st -> length ts < 10 -> create_model_of ts = PErr EEnd.
Proof.
  intros _ L. unfold create_model_of, create_model, remaining. cbn [rest start]. apply Nat.ltb_lt in L. rewrite L. reflexivity.
Qed.

(** C60. SYSCTL: the same but that CREATE USER and ALTER USER need at least nine tokens, that is an
    option at least. *)
Theorem C60_sysctl_partial ts st : sysctl_of ts = POk st <-> wf_sysctl ts st /\
  match st with SCreateUser _ _ | SAlterUser _ _ => 9 <= length ts | _ => True end.
Proof. apply sysctl_iff. Qed.

(** C60. USE and INSPECT. *)
Theorem C60_use ts u : use_of ts = POk u <-> wf_use ts (use_req_of u).
Proof. apply use_iff. Qed.
Theorem C60_inspect cs ts i : inspect_of cs ts = POk i <-> wf_inspect cs ts (insp_req_of i).
Proof. apply inspect_iff. Qed.

(** C60. So the tokens of a statement determine what it asks for. *)
Theorem C60_one_meaning ts a b :
  (wf_create_space ts a -> wf_create_space ts b -> a = b) /\
  (10 <= length ts -> wf_create_model ts a -> wf_create_model ts b -> a = b) /\
  (wf_alter_space ts a -> wf_alter_space ts b -> a = b) /\
  (wf_alter_model ts a -> wf_alter_model ts b -> a = b) /\
  (wf_drop_space ts a -> wf_drop_space ts b -> a = b) /\
  (wf_drop_model ts a -> wf_drop_model ts b -> a = b).
Proof.
  repeat split.
  - intros A B. apply create_space_iff in A, B. congruence.
  - intros L A B. pose proof (proj2 (create_model_iff ts a) (conj L A)). pose proof (proj2 (create_model_iff ts b) (conj L B)). congruence.
  - intros A B. apply alter_space_iff in A, B. congruence.
  - intros A B. apply alter_model_iff in A, B. congruence.
  - intros A B. apply drop_space_iff in A, B. congruence.
  - intros A B. apply drop_model_iff in A, B. congruence.
Qed.

(** C60. For every token sequence these parsers answer a statement or an error. *)
Theorem C60_inside_partial cs ts :
  sound (create_space_of ts) /\ sound (alter_space_of ts) /\ sound (drop_space_of ts) /\ sound (drop_model_of ts) /\
  sound (sysctl_of ts) /\ sound (use_of ts) /\ sound (inspect_of cs ts).
Proof.
  split; [apply create_space_sound|]. split; [apply alter_space_sound|]. split; [apply drop_sound|]. split; [apply drop_sound|].
  split; [apply sysctl_sound|]. split; [apply use_sound | apply inspect_sound].
Qed.

(** C60. CREATE MODEL reads outside the statement (a panic) exactly when the statement ends inside a
    column declared PRIMARY or NULL, before the colon; otherwise it answers. *)
Theorem C60_create_model_outside ts : create_model_of ts = PPanic <->
  10 <= length ts /\ exists nx e t l r, ts = nx_toks nx ++ full e ++ TSym SOpenParen :: t /\ pitems fdecl t l r /\
    ((exists x, r = [kmis KmPrimary; x]) \/ (exists x, r = [kmis KmNull; x]) \/ (exists x, r = [kmis KmPrimary; kmis KmNull; x])).
Proof.
  destruct (create_model_class ts) as [_ E]. rewrite E. unfold cut_create_model, cut_decls, cut_decl. split.
  - intros (L & nx & e & t & -> & l & r & P & C). split; [exact L|]. exists nx, e, t, l, r. auto.
  - intros (L & nx & e & t & l & r & -> & P & C). split; [exact L|]. exists nx, e, t. split; [reflexivity|]. eauto.
Qed.
Theorem C60_create_model_else_answers ts : create_model_of ts <> PPanic -> sound (create_model_of ts).
Proof. intros N. destruct (create_model_class ts) as [[S|S] _]; [exact S | congruence]. Qed.

(** C60. ALTER MODEL panics for every statement that ends after the model's name, and for every column
    that ends after its type; and only if it ends after the name or has a column with a type. *)
Theorem C60_alter_model_outside :
  (forall e, alter_model_of (full e) = PPanic) /\
  (forall e kw k t0 d t1 ls, kw = kmis KmAdd \/ kw = TKw (KStmt KsUpdate) ->
     dpre t0 d (kmis KmType :: TSym SColon :: t1) -> NoDup (map fst d) -> lyr t1 ls [] ->
     6 <= length (TId k :: TSym SOpenBrace :: t0) ->
     alter_model_of (full e ++ kw :: TId k :: TSym SOpenBrace :: t0) = PPanic).
Proof.
  split.
  - intros [a b]. reflexivity.
  - intros e kw k t0 d t1 ls KW P ND LY L. eapply alter_model_cut; eassumption.
Qed.
Theorem C60_alter_model_else_answers ts : sound (alter_model_of ts) \/
  (exists e, ts = full e) \/
  (exists e kw t, ts = full e ++ kw :: t /\ (kw = kmis KmAdd \/ kw = TKw (KStmt KsUpdate)) /\ In (kmis KmType) t).
Proof.
  destruct (alter_model_class ts) as [S|[_ [C|(e & kw & t & -> & K & O)]]]; [auto | auto|]. right. right. exists e, kw, t.
  split; [reflexivity|]. split; [exact K|].
  assert (TL : (forall t x r, dent t x r -> incl r t) /\ (forall t d r, dbody t d r -> incl r t) /\ (forall t d r, dtail t d r -> incl r t)).
  { apply DdlProofs.dict_mut; intros; intros y Y; cbn; auto 6. }
  destruct TL as (TE & TB & TT).
  assert (DP : forall t d r, dpre t d r -> incl r t).
  { intros t0 d r H. induction H as [|t0 x t1 d r X P IH]; [intros y Y; exact Y|]. intros y Y. apply (TE _ _ _ X). right. apply IH. exact Y. }
  assert (OE : forall t, open_edecl t -> In (kmis KmType) t).
  { intros t2 (k & t0 & d & t1 & -> & P & _). right. right. apply (DP _ _ _ P). left. reflexivity. }
  destruct O as [O|(t0 & -> & l & r & P & O)]; [apply OE; exact O|]. right. apply OE in O.
  assert (LY : forall t l r, lyr t l r -> incl r t).
  { intros t2 l2 r2 H. induction H as [ty r2 N|ty t2 d r2 B ND|ty t2 d1 t1 ls t3 d2 r2 PP L IH D ND]; intros y Y.
    - right. exact Y.
    - right. right. apply (TB _ _ _ B). exact Y.
    - right. right. apply (DP _ _ _ PP). right. right. apply IH. apply (TT _ _ _ D). exact Y. }
  clear K. induction P as [t2|t2 x t1 l r X P IH]; [exact O|]. specialize (IH O).
  inversion X as [k t0 d r0 B ND L E1 E2 E3|k t0 d1 t3 ls t4 d2 r0 PP L D ND LL E1 E2 E3]; subst; right; right.
  - apply (TB _ _ _ B). right. exact IH.
  - apply (DP _ _ _ PP). right. right. apply (LY _ _ _ L). apply (TT _ _ _ D). right. exact IH.
Qed.

(** C60 is false as it stands: a correct statement is refused, and statements are left. *)
Local Definition w (s : string) : token := TId (bstr s).
Definition ex_create9 : list token :=
  full (bstr "s", bstr "m") ++ [TSym SOpenParen; kmis KmPrimary; w "a"; TSym SColon; w "string"; TSym SCloseParen].
Theorem C60_written_refuted : exists ts st, wf_create_model ts st /\ create_model_of ts = PErr EEnd.
Proof.
  exists ex_create9, (SCreateModel (bstr "s", bstr "m") [mk_fs (bstr "a") [mk_ls (bstr "string") []] false true] [] false).
  split; [|vm_compute; reflexivity].
  apply (wcm false (bstr "s", bstr "m") [kmis KmPrimary; w "a"; TSym SColon; w "string"; TSym SCloseParen] _ [] []); [|constructor].
  constructor. apply (fd false true (bstr "a") [w "string"; TSym SCloseParen]); [reflexivity|]. constructor. discriminate.
Qed.
(** with IF NOT EXISTS the same statement is accepted *)
Example create9_if_not_exists : create_model_of (nx_toks true ++ ex_create9) =
  POk (SCreateModel (bstr "s", bstr "m") [mk_fs (bstr "a") [mk_ls (bstr "string") []] false true] [] true).
Proof. vm_compute. reflexivity. Qed.
Theorem C60_user_refuted : exists ts st, wf_sysctl ts st /\ sysctl_of ts = PErr ESyntax.
Proof.
  exists [TKw (KStmt KsCreate); w "user"; w "u"; kmis KmWith; TSym SOpenBrace; TSym SCloseBrace], (SCreateUser (bstr "u") []).
  split; [|vm_compute; reflexivity]. constructor; [|constructor|constructor]. exists (bstr "user"%string). split; reflexivity.
Qed.
Definition ex_cut_create : list token :=
  full (bstr "s", bstr "m") ++ [TSym SOpenParen; w "a"; TSym SColon; w "string"; TSym SComma; kmis KmPrimary; w "x"].
Definition ex_cut_alter : list token :=
  full (bstr "s", bstr "m") ++ [kmis KmAdd; w "f"; TSym SOpenBrace; w "nullable"; TSym SColon; TLit (LBool true); TSym SComma;
    kmis KmType; TSym SColon; w "string"].
Theorem C60_inside_refuted : exists a b c, create_model_of a = PPanic /\ alter_model_of b = PPanic /\ alter_model_of c = PPanic.
Proof. exists ex_cut_create, ex_cut_alter, (full (bstr "s", bstr "m")). vm_compute. auto. Qed.

(** Non-trivial statements. CREATE MODEL s.m(primary id: uint64, tags: list { type: string, }) WITH { a: { b: 1 } } *)
Example ex_create_full : create_model_of (full (bstr "s", bstr "m") ++ [TSym SOpenParen; kmis KmPrimary; w "id"; TSym SColon; w "uint64";
    TSym SComma; kmis KmNull; w "tags"; TSym SColon; w "list"; TSym SOpenBrace; kmis KmType; TSym SColon; w "string"; TSym SComma; TSym SCloseBrace;
    TSym SCloseParen; kmis KmWith; TSym SOpenBrace; w "a"; TSym SColon; TSym SOpenBrace; w "b"; TSym SColon; TLit (LUInt 1); TSym SCloseBrace; TSym SCloseBrace])
  = POk (SCreateModel (bstr "s", bstr "m")
      [mk_fs (bstr "id") [mk_ls (bstr "uint64") []] false true;
       mk_fs (bstr "tags") [mk_ls (bstr "string") []; mk_ls (bstr "list") []] true false]
      [(bstr "a", DMap [(bstr "b", DData (lit_cell (LUInt 1)))])] false).
Proof. vm_compute. reflexivity. Qed.
Example ex_alter_add : alter_model_of (full (bstr "s", bstr "m") ++ [kmis KmAdd; TSym SOpenParen; w "f"; TSym SOpenBrace; kmis KmType; TSym SColon;
    w "string"; TSym SComma; w "nullable"; TSym SColon; TLit (LBool true); TSym SCloseBrace; TSym SCloseParen])
  = POk (SAlterModel (bstr "s", bstr "m") (AkAdd [mk_ef (bstr "f") [mk_ls (bstr "string") []] [(bstr "nullable", DData (lit_cell (LBool true)))]])).
Proof. vm_compute. reflexivity. Qed.
Example ex_alter_remove : alter_model_of (full (bstr "s", bstr "m") ++ [kmis KmRemove; TSym SOpenParen; w "f"; TSym SComma; w "g"; TSym SCloseParen])
  = POk (SAlterModel (bstr "s", bstr "m") (AkRemove [bstr "f"; bstr "g"])).
Proof. vm_compute. reflexivity. Qed.
Example ex_drop_model : drop_model_of (ex_toks true ++ [kmis KmAllow; kmis KmNot; w "EMPTY"] ++ full (bstr "s", bstr "m"))
  = POk (SDropModel (bstr "s", bstr "m") true true).
Proof. vm_compute. reflexivity. Qed.
Example ex_create_space : create_space_of (nx_toks true ++ [w "s"; kmis KmWith; TSym SOpenBrace; w "env"; TSym SColon; kmis KmNull; TSym SCloseBrace])
  = POk (SCreateSpace (bstr "s") [(bstr "env", DData CNull)] true).
Proof. vm_compute. reflexivity. Qed.
(** a key written twice is refused *)
Example ex_twice : create_space_of [w "s"; kmis KmWith; TSym SOpenBrace; w "a"; TSym SColon; kmis KmNull; TSym SComma; w "a"; TSym SColon; kmis KmNull; TSym SCloseBrace]
  = PErr ESyntax.
Proof. vm_compute. reflexivity. Qed.
Example ex_sysctl : sysctl_of [TKw (KStmt KsAlter); w "User"; w "u"; kmis KmWith; TSym SOpenBrace; w "password"; TSym SColon; TLit (LStr (bstr "x")); TSym SCloseBrace]
  = POk (SAlterUser (bstr "u") [(bstr "password", DData (lit_cell (LStr (bstr "x"))))]).
Proof. vm_compute. reflexivity. Qed.
Example ex_use_inspect : use_of [TSym SDollar; w "CURRENT"] = POk UseCurrent /\ inspect_of (Some (bstr "s")) [kmis KmModel; w "m"] = POk (InModel (bstr "s", bstr "m")).
Proof. vm_compute. auto. Qed.

Print Assumptions C60_space_statements.
Print Assumptions C60_model_statements.
Print Assumptions C60_create_model_partial.
Print Assumptions C60_short_create_model_refused.
Print Assumptions C60_sysctl_partial.
Print Assumptions C60_use.
Print Assumptions C60_inspect.
Print Assumptions C60_one_meaning.
Print Assumptions C60_inside_partial.
Print Assumptions C60_create_model_outside.
Print Assumptions C60_create_model_else_answers.
Print Assumptions C60_alter_model_outside.
Print Assumptions C60_alter_model_else_answers.
Print Assumptions C60_written_refuted.
Print Assumptions C60_user_refuted.
Print Assumptions C60_inside_refuted.
