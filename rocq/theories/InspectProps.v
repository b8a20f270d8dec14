(** C55: the answers of INSPECT. *)
From Coq Require Import Strings.String List NArith ZArith Bool Arith Lia Permutation.
From Verif Require Import Bytes DataModel CodecModel AMap NumModel NumProofs TypeModel GnsModel RowModel LexModel LexSpec ParseModel ParseSpec
  DdlModel ExecModel InspectModel JsonSpec InspectProofs InspectReach.
Import ListNotations.

(** the value INSPECT GLOBAL should have *)
Definition global_value (root : bool) (n : ns) : jval :=
  JObj ((bstr "spaces", JArr (map (fun s => JStr (fst s)) (n_spaces n))) ::
        (if root then [(bstr "users", JArr (map (fun u => JStr (fst u)) (n_users n)))] else []) ++
        [(bstr "settings", JObj [])]).

Lemma key_chars s : forallb plain (bstr s) = true -> jchars (bstr s).
Proof. intros H. rewrite <- (app_nil_r (bstr s)). apply plain_chars; [exact H | constructor]. Qed.
Lemma map_fst_words {V} (l : list (bytes * V)) : Forall (fun s => is_word (fst s)) l -> Forall is_word (map fst l).
Proof. induction 1; cbn; auto. Qed.

(** ** The texts, for every namespace with words as names *)

Lemma global_json n root rows : ns_ok n ->
  exists t, inspect_text root n rows InGlobal = Some t /\ json (global_value root n) t.
Proof.
  intros S. destruct S as (A & _ & U). eexists. split; [reflexivity|]. apply json_of.
  assert (WS : Forall is_word (map fst (n_spaces n))) by (apply map_fst_words; eapply Forall_impl; [|exact A]; intros a []; assumption).
  assert (WU : Forall is_word (map fst (n_users n))) by (apply map_fst_words; exact U).
  apply names_array in WS, WU. rewrite map_map in WS, WU. unfold global_value, inspect_global.
  assert (SET : jtext (JObj []) (bstr "{}")) by apply (jt_obj0 [] ws_nil).
  pose proof (members_one (bstr "settings") _ _ (key_chars "settings" eq_refl) SET) as M3.
  destruct root.
  - pose proof (members_more (bstr "users") _ _ _ _ (key_chars "users" eq_refl) WU M3) as M2.
    pose proof (members_more (bstr "spaces") _ _ _ _ (key_chars "spaces" eq_refl) WS M2) as M1.
    apply jt_obj in M1. cbn [app]. eapply eq_ind; [exact M1|]. cbn. repeat (rewrite <- ?app_assoc; cbn [app]). reflexivity.
  - pose proof (members_more (bstr "spaces") _ _ _ _ (key_chars "spaces" eq_refl) WS M3) as M1.
    apply jt_obj in M1. cbn [app]. eapply eq_ind; [exact M1|]. cbn. repeat (rewrite <- ?app_assoc; cbn [app]). reflexivity.
Qed.

Lemma tag_plain t : forallb plain (tag_name t) = true. Proof. destruct t; reflexivity. Qed.
Lemma repeat_plain b n : plain b = true -> forallb plain (repeat b n) = true.
Proof. intros P. induction n; cbn; auto. rewrite P. exact IHn. Qed.
Lemma word_plain w : is_word w -> forallb plain w = true.
Proof.
  intros W. apply word_wbytes in W. induction W as [|b w B _ IH]; [reflexivity|]. cbn. rewrite IH, andb_true_r.
  destruct (wbyte_plain b B) as (A & Q & C). unfold plain. apply N.leb_le in A. rewrite A, (beq_neq _ _ Q), (beq_neq _ _ C). reflexivity.
Qed.
Lemma cols_plain pk l : Forall col_ok l -> forallb plain (cols_text pk l) = true.
Proof.
  induction 1 as [|[k f] l [W _] _ IH]; [reflexivity|]. cbn [cols_text]. rewrite !forallb_app, IH, andb_true_r. unfold col_text, type_text. cbn [fst snd] in *.
  cbn [forallb]. rewrite !forallb_app, (word_plain k W). cbn [forallb]. rewrite !forallb_app, tag_plain, !repeat_plain by reflexivity.
  destruct l; [|cbn]; destruct (bseq pk k), (f_null f); reflexivity.
Qed.
Lemma describe_chars m : Forall col_ok (lo_fields m) -> jchars (describe m).
Proof.
  intros F. rewrite <- (app_nil_r (describe m)). apply plain_chars; [|constructor]. unfold describe. cbn [forallb]. rewrite forallb_app, cols_plain by exact F. reflexivity.
Qed.

Lemma model_json n root rows e m : ns_ok n -> aget ent_eqb e (n_models n) = Some m -> (rows e < two64)%N ->
  exists t r, inspect_text root n rows (InModel e) = Some t /\ dec_text (rows e) r /\
    json (JObj [(bstr "decl", JStr (describe (md_lay m))); (bstr "rows", JNum r); (bstr "properties", JObj [])]) t.
Proof.
  intros S G R. destruct S as (_ & B & _). destruct (get_ok_e _ _ _ _ G B) as (e' & M). cbn in M.
  pose proof (dec_u64_text _ R) as D. exists (match inspect_model n rows e with Some t => t | None => [] end), (dec_u64 (rows e)).
  cbn [inspect_text]. unfold inspect_model. rewrite G. split; [reflexivity|]. split; [exact D|]. apply json_of.
  assert (P0 : jtext (JObj []) (bstr "{}")) by apply (jt_obj0 [] ws_nil).
  pose proof (members_one (bstr "properties") _ _ (key_chars "properties" eq_refl) P0) as M3.
  pose proof (members_more (bstr "rows") _ _ _ _ (key_chars "rows" eq_refl) (jt_num _ (dec_num _ _ D)) M3) as M2.
  pose proof (members_more (bstr "decl") _ _ _ _ (key_chars "decl" eq_refl) (jt_str _ (describe_chars _ M)) M2) as M1.
  apply jt_obj in M1. eapply eq_ind; [exact M1|]. unfold quoted at 2. cbn [bstr list_byte_of_string app quoted].
  change (list_byte_of_string ?s) with (bstr s). unfold quoted. cbn. repeat (rewrite <- ?app_assoc; cbn [app]). reflexivity.
Qed.

Lemma space_malformed n root rows k t : ns_ok n -> inspect_text root n rows (InSpace k) = Some t ->
  forall v, ~ json v t.
Proof.
  intros S G v J. cbn [inspect_text] in G. unfold inspect_space in G.
  destruct (aget bseq k _) as [s|] eqn:A; [|discriminate G].
  assert (T : t = bstr "{""models"":[" ++ names_text (sp_models s) ++ bstr "]}}") by congruence. subst t. clear G. apply json_neutral in J.
  destruct (models_of_ok _ _ _ A S) as [_ W]. apply names_array in W. apply (proj1 jtext_neutral) in W.
  assert (E : bstr "{""models"":[" ++ names_text (sp_models s) ++ bstr "]}}" =
     bstr "{""models"":" ++ (x5b :: names_text (sp_models s) ++ [x5d]) ++ bstr "}}") by (cbn; repeat (rewrite <- ?app_assoc; cbn [app]); reflexivity).
  rewrite E in J. specialize (J 0%Z). rewrite bal_app in J. change (bal 0 0 (bstr "{""models"":")) with (O, 1%Z) in J.
  cbn iota beta in J. rewrite bal_app, (W 1%Z) in J. discriminate J.
Qed.
Lemma space_json n root rows k s : ns_ok n -> aget bseq k (n_spaces n) = Some s ->
  exists t, inspect_text root n rows (InSpace k) = Some (t ++ [x7d]) /\ json (JObj [(bstr "models", JArr (map JStr (sp_models s)))]) t.
Proof.
  intros S A. destruct (models_of_ok _ _ _ A S) as [_ W]. apply names_array in W.
  pose proof (members_one (bstr "models") _ _ (key_chars "models" eq_refl) W) as M. apply jt_obj in M.
  eexists. split; [|apply json_of; exact M]. cbn. unfold inspect_space. rewrite A. f_equal. cbn. repeat (rewrite <- ?app_assoc; cbn [app]). reflexivity.
Qed.

Section Server.
Variable order : list (bytes * field) -> list (bytes * field).
Hypothesis order_perm : forall l, Permutation l (order l).
Variable hash : bytes -> N -> bytes.
Variable uuid_text uuid_bin : nat -> bytes.
Variable now_secs : nat -> N.
Variable data dans : Type.
Variable dml : request -> ns -> data -> data * dans.
Variable inspect : session -> ns -> data -> inspect_stmt -> dans.
Variable u8 : bytes -> bool.
Variable fl : bytes -> option N.
Notation served := (served order hash uuid_text uuid_bin now_secs data dans dml inspect u8 fl).

(** C55. On every server, whatever queries it has served, the answer of INSPECT GLOBAL is the JSON text
    listing the spaces, and for root the users. *)
Theorem C55_global w d root rows : served w d ->
  exists t, inspect_text root (w_ns w) rows InGlobal = Some t /\ json (global_value root (w_ns w)) t.
Proof. intros S. apply served_ok in S; [|exact order_perm]. exact (global_json _ root rows S). Qed.

(** C55. The answer of INSPECT MODEL is the JSON text with the description of the model's columns and
    the number of its rows, in decimal. *)
Theorem C55_model w d root rows e m : served w d -> aget ent_eqb e (n_models (w_ns w)) = Some m -> (rows e < two64)%N ->
  exists t r, inspect_text root (w_ns w) rows (InModel e) = Some t /\ dec_text (rows e) r /\
    json (JObj [(bstr "decl", JStr (describe (md_lay m))); (bstr "rows", JNum r); (bstr "properties", JObj [])]) t.
Proof. intros S. apply served_ok in S; [|exact order_perm]. exact (model_json _ root rows e m S). Qed.

(** C55 is false for INSPECT SPACE: the answer has one closing brace too many, for every space of every
    server, so that it is no JSON text. *)
Theorem C55_space_malformed w d root rows k t : served w d -> inspect_text root (w_ns w) rows (InSpace k) = Some t ->
  forall v, ~ json v t.
Proof. intros S. apply served_ok in S; [|exact order_perm]. exact (space_malformed _ root rows k t S). Qed.
(** without that brace it would be the list of the models of the space *)
Theorem C55_space_partial w d root rows k s : served w d -> aget bseq k (n_spaces (w_ns w)) = Some s ->
  exists t, inspect_text root (w_ns w) rows (InSpace k) = Some (t ++ [x7d]) /\ json (JObj [(bstr "models", JArr (map JStr (sp_models s)))]) t.
Proof. intros S. apply served_ok in S; [|exact order_perm]. exact (space_json _ root rows k s S). Qed.

(** C55. INSPECT of what does not exist is an error, of all else an answer. *)
Theorem C55_not_found n root rows i : inspect_text root n rows i = None <->
  match i with InGlobal => False | InSpace k => aget bseq k (n_spaces n) = None | InModel e => aget ent_eqb e (n_models n) = None end.
Proof.
  destruct i as [|k|e]; cbn; unfold inspect_space, inspect_model; [split; [discriminate | contradiction]|destruct (aget _ _ _)|destruct (aget _ _ _)];
    split; intros H; auto; discriminate H.
Qed.
End Server.

(** ** The description of a model *)

(** what of a column the description is about: its name, its type, whether it is the primary key, and
    if not whether it may be null *)
Definition shown (pk : bytes) (c : bytes * field) : bytes * list tsel * option bool :=
  (fst c, f_layers (snd c), if bseq pk (fst c) then None else Some (f_null (snd c))).

Lemma split_word a : forall b x y r s, Forall wbyte a -> Forall wbyte b -> ~ wbyte x -> ~ wbyte y -> a ++ x :: r = b ++ y :: s -> a = b /\ x :: r = y :: s.
Proof.
  induction a as [|c a IH]; intros [|d b] x y r s A B X Y E; cbn in E.
  - auto.
  - injection E as -> _. inversion B; contradiction.
  - injection E as -> _. inversion A; contradiction.
  - inversion A; inversion B; subst. injection E as -> E. destruct (IH b x y r s) as [-> E2]; auto.
Qed.
Lemma not_wbyte b : negb (N.leb 97 (b2n (low b)) && N.leb (b2n (low b)) 122) && negb (N.leb 48 (b2n b) && N.leb (b2n b) 57) && negb (beq b x5f) = true -> ~ wbyte b.
Proof.
  intros H W. unfold wbyte, letter in W. destruct W as [[A B]|[[A B]| ->]]; [|
    |cbn in H; discriminate H];
    apply N.leb_le in A, B; rewrite A, B in H; cbn in H; try rewrite andb_false_r in H; try discriminate H.
Qed.
Lemma tag_words t : Forall wbyte (tag_name t).
Proof.
  assert (L : forall b, N.leb 97 (b2n (low b)) && N.leb (b2n (low b)) 122 || N.leb 48 (b2n b) && N.leb (b2n b) 57 = true -> wbyte b).
  { intros b H. apply orb_prop in H. destruct H as [H|H]; apply andb_prop in H; destruct H as [A B]; apply N.leb_le in A, B; [left|right; left]; split; assumption. }
  assert (A : forallb (fun b => N.leb 97 (b2n (low b)) && N.leb (b2n (low b)) 122 || N.leb 48 (b2n b) && N.leb (b2n b) 57) (tag_name t) = true)
    by (destruct t; reflexivity).
  apply Forall_forall. intros b H. apply L. rewrite forallb_forall in A. exact (A b H).
Qed.
Lemma tag_inj a b : tag_name a = tag_name b -> a = b.
Proof. destruct a, b; intros H; try reflexivity; discriminate H. Qed.
Lemma tag_open t : exists b r, tag_name t = b :: r /\ b <> x5b. Proof. destruct t; cbn; eexists; eexists; (split; [reflexivity|discriminate]). Qed.
Lemma open_inj n : forall m t u r s, repeat x5b n ++ tag_name t ++ r = repeat x5b m ++ tag_name u ++ s -> n = m /\ tag_name t ++ r = tag_name u ++ s.
Proof.
  induction n as [|n IH]; intros [|m] t u r s E; cbn in E.
  - auto.
  - destruct (tag_open t) as (b & q & T & N). rewrite T in E. injection E as -> _. contradiction.
  - destruct (tag_open u) as (b & q & T & N). rewrite T in E. injection E as <- _. contradiction.
  - injection E as E. destruct (IH m t u r s E) as [-> E2]. auto.
Qed.
Lemma shape_type n t : type_text (repeat TsList n ++ [t]) = repeat x5b n ++ tag_name t ++ repeat x5d n.
Proof. unfold type_text. rewrite app_length, repeat_length, last_last. cbn. replace (n + 1 - 1) with n by lia. reflexivity. Qed.
(** what follows a column: a comma or the closing brace *)
Lemma type_inj ls ls' x y r s : shape ls -> shape ls' -> ~ wbyte x -> ~ wbyte y ->
  type_text ls ++ x :: r = type_text ls' ++ y :: s -> ls = ls' /\ x :: r = y :: s.
Proof.
  intros (n & t & T & ->) (m & u & U & ->) X Y E. rewrite !shape_type, <- !app_assoc in E. apply open_inj in E. destruct E as [-> E].
  assert (NB : ~ wbyte x5d) by (apply not_wbyte; reflexivity).
  assert (C : forall z q, exists z' q', repeat x5d m ++ z :: q = z' :: q' /\ (~ wbyte z -> ~ wbyte z')).
  { intros z q. destruct m; cbn; eauto. }
  destruct (C x r) as (x' & r' & E1 & X'), (C y s) as (y' & s' & E2 & Y').
  rewrite E1, E2 in E. apply split_word in E; [|apply tag_words|apply tag_words|auto|auto]. destruct E as [E E3]. apply tag_inj in E. subst u. split; [reflexivity|].
  rewrite <- E1, <- E2 in E3. apply app_inv_head in E3. exact E3.
Qed.

Lemma mark_shown pk pk' k f f' : (if bseq pk k then x2a else if f_null f then x3f else x21) = (if bseq pk' k then x2a else if f_null f' then x3f else x21) ->
  (if bseq pk k then None else Some (f_null f)) = (if bseq pk' k then None else Some (f_null f')).
Proof. destruct (bseq pk k), (bseq pk' k), (f_null f), (f_null f'); intros H; try reflexivity; discriminate H. Qed.
Lemma colon_no : ~ wbyte x3a. Proof. apply not_wbyte. reflexivity. Qed.
Lemma col_inj pk pk' c c' x y r s : col_ok c -> col_ok c' -> ~ wbyte x -> ~ wbyte y ->
  col_text pk c ++ x :: r = col_text pk' c' ++ y :: s -> shown pk c = shown pk' c' /\ x :: r = y :: s.
Proof.
  destruct c as [k f], c' as [k' f']. intros [W S] [W' S'] X Y E. unfold col_text, shown in *. cbn [fst snd app] in *. injection E as E0 E.
  rewrite <- !app_assoc in E. cbn [app] in E. apply split_word in E; [|apply word_wbytes; assumption|apply word_wbytes; assumption|exact colon_no|exact colon_no].
  destruct E as [-> E]. injection E as E. apply type_inj in E; auto. destruct E as [-> E]. split; [|exact E]. rewrite (mark_shown _ _ _ _ _ E0). reflexivity.
Qed.
Lemma cols_inj pk pk' l : forall l', Forall col_ok l -> Forall col_ok l' -> cols_text pk l ++ [x7d] = cols_text pk' l' ++ [x7d] ->
  map (shown pk) l = map (shown pk') l'.
Proof.
  assert (NB : ~ wbyte x7d) by (apply not_wbyte; reflexivity). assert (NC : ~ wbyte x2c) by (apply not_wbyte; reflexivity).
  assert (NE : forall p c (t : bytes), [x7d] <> col_text p c ++ t).
  { intros p [k f] t E. unfold col_text in E. cbn [app] in E. destruct (bseq p _); [|destruct (f_null _)]; discriminate E. }
  assert (Z : forall p (m : fieldmap), exists z q, (match m with [] => [] | _ => [COMMA] end) ++ cols_text p m ++ [x7d] = z :: q /\ ~ wbyte z /\
            (z :: q = [x7d] /\ m = [] \/ z = x2c /\ q = cols_text p m ++ [x7d] /\ m <> [])).
  { intros p [|c m]; cbn [app]; do 2 eexists; (split; [reflexivity|]); split; auto. right. split; [reflexivity|]. split; [reflexivity|discriminate]. }
  induction l as [|c l IH]; intros [|c' l'] F F' E.
  - reflexivity.
  - exfalso. cbn [cols_text app] in E. rewrite <- app_assoc in E. exact (NE _ _ _ E).
  - exfalso. cbn [cols_text app] in E. rewrite <- app_assoc in E. symmetry in E. exact (NE _ _ _ E).
  - inversion F; inversion F'; subst. cbn [cols_text] in E. rewrite <- !app_assoc in E.
    destruct (Z pk l) as (z & q & E1 & NZ & C1), (Z pk' l') as (z' & q' & E2 & NZ' & C2). rewrite E1, E2 in E.
    apply col_inj in E; auto. destruct E as [E0 E]. cbn [map]. rewrite E0. f_equal.
    destruct C1 as [[C1 ->]|(-> & -> & N1)], C2 as [[C2 ->]|(-> & -> & N2)]; try congruence; [reflexivity|]. apply IH; auto. congruence.
Qed.

(** C55. The description determines the columns: their names and order, types, the primary key, and
    which of the others may be null. (Whether the primary key may be null is not shown: C21.) *)
Theorem C55_decl_determines a b : Forall col_ok (lo_fields a) -> Forall col_ok (lo_fields b) -> describe a = describe b ->
  map (shown (lo_pk a)) (lo_fields a) = map (shown (lo_pk b)) (lo_fields b).
Proof. intros A B E. unfold describe in E. injection E as E. eapply cols_inj; eassumption. Qed.

Print Assumptions C55_global.
Print Assumptions C55_model.
Print Assumptions C55_space_malformed.
Print Assumptions C55_space_partial.
Print Assumptions C55_not_found.
Print Assumptions C55_decl_determines.

(** ** Concrete cases *)
Definition i_zt (_ : nat) : bytes := [].
Definition i_zn (_ : nat) : N := 0%N.
Definition i_query := query i_zt i_zt i_zn (fun l => l) (fun p _ => p) nat nat (fun _ _ d => (d, d)) (fun _ _ d _ => d).
Definition i_served := served (fun l => l) (fun p _ => p) i_zt i_zt i_zn nat nat (fun _ _ d => (d, d)) (fun _ _ d _ => d) (fun _ => true) (fun _ => None).
Definition i_lex (s : string) : list token := match lex (fun _ => true) (fun _ => None) (bstr s) [] with LexOk ts => ts | _ => [] end.
Definition i_step (w : world) (s : string) : world :=
  let '(_, w', _, _) := i_query (mk_conn (mk_session ROOT true) None) (mk_env 7 true true 0 0) w 0 (i_lex s) in w'.
Definition i_texts : list string :=
  ["create space s"; "create space t"; "create model s.m(primary k: string, null v: list { type: uint8 }, w: bool)"; "create model s.n(k: uint8, v: string)";
   "alter model s.m add x { type: float32 }"]%string.
Definition i_new : world := mk_world (mk_ns [] [] [(ROOT, [])]) [] false.
Definition i_w : world := fold_left i_step i_texts i_new.
Lemma i_step_served w s : i_served w 0 -> lex (fun _ => true) (fun _ => None) (bstr s) [] = LexOk (i_lex s) -> i_served (i_step w s) 0.
Proof.
  intros S L. unfold i_step. destruct (i_query (mk_conn (mk_session ROOT true) None) (mk_env 7 true true 0 0) w 0 (i_lex s)) as [[[c' w'] d'] a] eqn:Q.
  assert (D : d' = 0).
  { unfold i_query, query in Q. destruct (dispatch _ _ _ _ _ _) as [r|e| | |]; try (injection Q; congruence).
    destruct r; try (injection Q; congruence); [destruct (exec_stmt _ _ _ _ _ _)|destruct (do_use _ _ _ _)]; injection Q; congruence. }
  subst d'. eapply sv_query; [exact S|exact L|exact Q].
Qed.
Lemma i_served_w : i_served i_w 0.
Proof. unfold i_w, i_texts. cbn [fold_left]. repeat (apply i_step_served; [|vm_compute; reflexivity]). constructor. Qed.

Example C55_global_case : inspect_text true (w_ns i_w) (fun _ => 0%N) InGlobal = Some (bstr "{""spaces"":[""s"",""t""],""users"":[""root""],""settings"":{}}") /\
  inspect_text false (w_ns i_w) (fun _ => 0%N) InGlobal = Some (bstr "{""spaces"":[""s"",""t""],""settings"":{}}").
Proof. vm_compute. auto. Qed.
Example C55_model_case : inspect_text true (w_ns i_w) (fun _ => 1234567%N) (InModel (bstr "s", bstr "m")) =
  Some (bstr "{""decl"":""{*k:String,?v:[UInt8],!w:Bool,!x:Float32}"",""rows"":1234567,""properties"":{}}").
Proof. vm_compute. reflexivity. Qed.
(** INSPECT SPACE s after these statements *)
Theorem C55_space_refuted : exists w k t, i_served w 0 /\ inspect_text true (w_ns w) (fun _ => 0%N) (InSpace k) = Some t /\
  t = bstr "{""models"":[""m"",""n""]}}" /\ forall v, ~ json v t.
Proof.
  exists i_w, (bstr "s"), (bstr "{""models"":[""m"",""n""]}}"). split; [exact i_served_w|]. split; [vm_compute; reflexivity|]. split; [reflexivity|].
  eapply C55_space_malformed with (k := bstr "s") (root := true) (rows := fun _ => 0%N); [|exact i_served_w|vm_compute; reflexivity]. intros l. apply Permutation_refl.
Qed.
Print Assumptions C55_space_refuted.
