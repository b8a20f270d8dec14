(** C62 on the bytes of the whole server. *)
From Coq Require Import Strings.String List NArith ZArith Bool Arith Lia Permutation.
From Verif Require Import Bytes DataModel CodecModel GnsCodecModel AMap DictModel TypeModel GnsModel GnsProofs GnsProps RowModel RowProps NetModel LexModel LexSpec ParseModel ParseSpec
  DdlModel ExecModel InspectModel JsonSpec InspectProofs InspectReach InspectProps PathModel PathProps BatchModel UpgradeModel UpgradeSteps WholeModel WholeSpec WholeProofs WholeInv WholeHist WholeProps WireModel WireSpec WireProofs WireProps WireInspect.
Import ListNotations.

(** the names of a data file, and of what a deletion is about *)
Definition fid_ok (f : fid) : Prop := is_word (fst (fst f)) /\ is_word (fst (snd f)).
Definition del_named (d : dtask) : Prop := match d with DelModel f => fid_ok f | DelSpace k _ => is_word k end.
Definition named (g : gst) : Prop :=
  world_ok (sv_w (g_sv g)) /\ Forall (fun kf => fid_ok (fst kf)) (g_files g) /\ Forall del_named (g_dels g) /\ Forall (fun kn : ent * node => fid_ok (nd_file (snd kn))) (g_nodes g).

Section Run.
Variable order : list (bytes * field) -> list (bytes * field).
Hypothesis order_perm : forall l, Permutation l (order l).
Variable hash : bytes -> N -> bytes.
Variable verify : bytes -> bytes -> bool.
Variable farith : aop -> N -> N -> N.
Variable u8 : bytes -> bool.
Variable fl : bytes -> option N.
Variable ftoa : N -> bytes.
Notation gstep := (gstep farith order hash verify).
Notation wstep := (wstep farith order hash verify u8 fl ftoa).
Notation whist := (whist farith order hash verify u8 fl ftoa).

(** what every event of the server keeps, all bytes keep *)
Section Keep.
Variable P : gst -> Prop.
Hypothesis keep : forall g o g' r, P g -> match o with GDdl _ _ s => stmt_ok s | _ => True end -> gstep g o = Some (g', r) -> P g'.
Lemma perform_keep g i cs en gn q p : P g ->
  match perform farith order hash verify u8 fl ftoa g i cs en gn q p with
  | PdDead g' _ | PdSay g' _ _ _ => P g'
  | _ => True
  end.
Proof using keep.
  intros W. unfold perform. destruct (nth_error _ i) as [se|]; [|exact Logic.I]. destruct (lex u8 fl q p) as [ts|e|] eqn:L; [|exact W|exact Logic.I].
  apply lex_ok in L. destruct (dispatch _ _ _ _ _ ts) as [rq|e| | |] eqn:D; try exact Logic.I; try exact W.
  assert (DM : forall id st, match gstep g (GDml i id st) with Some (g', _) => P g' | None => True end).
  { intros id st. destruct (gstep g (GDml i id st)) as [[g' r]|] eqn:G; [|exact Logic.I]. eapply keep; [exact W| |exact G]. exact Logic.I. }
  assert (DX : forall id st, match (match gstep g (GDml i id st) with
                  | Some (g', GoStmt RoUb) => PdUb
                  | Some (g', GoStmt o) =>
                      let d := Some (GDml i id st, GoStmt o) in
                      match dml_resp ftoa g id st o with Some r => PdSay g' cs r d | None => PdDead g' d end
                  | Some (g', GoNoModel) => PdSay g' cs (RErr 100) (Some (GDml i id st, GoNoModel))
                  | _ => PdOff
                  end) with PdDead g' _ | PdSay g' _ _ _ => P g' | _ => True end).
  { intros id st. specialize (DM id st). destruct (gstep g (GDml i id st)) as [[g' [o|o|o| |o| | |]]|]; try exact Logic.I; [|exact DM].
    cbv zeta. destruct (dml_resp ftoa g id st o); destruct o; try exact Logic.I; exact DM. }
  destruct rq; cbn [dml_of]; try apply DX.
  - destruct (gstep g (GDdl i en s)) as [[g' [o|o|o| |o| | |]]|] eqn:G; try exact Logic.I. assert (W' : P g').
    { eapply keep; [exact W| |exact G]. eapply dispatch_ok; eassumption. }
    destruct (ddl_resp o); exact W'.
  - destruct (do_use _ _ _ _). exact W.
  - exact W.
Qed.
Lemma wstep_keep x e x' b d : P (x_g x) -> wstep x e = Some (x', (b, d)) -> P (x_g x').
Proof using keep.
  intros W. destruct e as [|j en gn ch|o]; cbn [WireModel.wstep].
  - intros H. injection H as <- _ _. exact W.
  - destruct (nth_error _ j) as [[c|i cs c|]|]; try discriminate.
    + unfold read_hello. destruct (hs_read c ch) as [c'|u p unread|e| | |]; try discriminate; intros H; try (injection H as <- _ _; exact W).
      destruct (u8 u); [|injection H as <- _ _; exact W].
      destruct (WholeModel.gstep farith order hash verify (x_g x) (GLogin u p)) as [[g' r]|] eqn:G; [|discriminate H].
      assert (W' : P g') by (eapply keep; [exact W| |exact G]; exact Logic.I).
      destruct r as [[[]| |]| | | | | | |]; injection H as <- _ _; exact W'.
    + unfold read_query. destruct (q_read c ch) as [c1|[q p|] c1| |]; intros H; try (injection H as <- _ _; exact W).
      pose proof (perform_keep (x_g x) i cs en gn q p W) as Q. destruct (perform _ _ _ _ _ _ _ _ _ _ _ _ _ _); try discriminate H; injection H as <- _ _; exact Q.
  - destruct (is_back o) eqn:IB; [|discriminate]. destruct (WholeModel.gstep farith order hash verify (x_g x) o) as [[g' r]|] eqn:G; [|discriminate].
    intros H. injection H as <- _ _. eapply keep; [exact W| |exact G]. destruct o; try exact Logic.I. discriminate IB.
Qed.
End Keep.

Lemma get_fid {V} f (l : list (fid * V)) v : Forall (fun kf => fid_ok (fst kf)) l -> aget fid_eqb f l = Some v -> fid_ok f.
Proof using.
  intros F G. apply (aget_in fid_eqb fid_eqb_eq) in G. rewrite Forall_forall in F. exact (F _ G).
Qed.
Lemma put_back_named id nd s g : named g -> fid_ok (nd_file nd) -> named (put_back id nd s g).
Proof using.
  intros (W & F & D & N) FO. unfold put_back. split; [exact W|]. split; [|split; [exact D|]].
  - cbn [g_files]. destruct (aget _ _ _); [|exact F]. apply put_ok; [exact FO|exact F].
  - cbn [g_nodes]. apply put_ok; [exact FO|exact N].
Qed.
Lemma load_named n d files : Forall (fun kf : fid * dfile => fid_ok (fst kf)) files -> forall l r, load_nodes n d files l = Some r -> Forall (fun kn : ent * node => fid_ok (nd_file (snd kn))) r.
Proof using.
  intros F. induction l as [|[id mm] l IH]; intros r H; cbn [load_nodes] in H; [injection H as <-; constructor|].
  destruct (file_of n id) as [[f lay]|]; [|discriminate H]. destruct (aget fid_eqb f files) as [df|] eqn:G; [|discriminate H]. destruct (df_bad df); [discriminate H|].
  destruct (apply_batches _ _); [|discriminate H]. destruct (load_nodes n d files l) as [r1|] eqn:E; [|discriminate H]. injection H as <-.
  constructor; [exact (get_fid _ _ _ F G)|]. apply IH. reflexivity.
Qed.
Lemma node_named g id nd : named g -> aget ent_eqb id (g_nodes g) = Some nd -> fid_ok (nd_file nd).
Proof using. intros (_ & _ & _ & N) G. apply (aget_in ent_eqb ent_eqb_eq) in G. rewrite Forall_forall in N. exact (N _ G). Qed.
Lemma in_set_has k l : set_has k l = true -> In k l.
Proof using. unfold set_has. intros H. apply existsb_exists in H as (x & I & E). apply bseq_eq in E. subst x. exact I. Qed.

Lemma effect_named g i en s se w1 o1 : named g -> stmt_ok s -> nth_error (sv_sess (g_sv g)) i = Some se -> exec_stmt order hash se (seen g en s) (sv_w (g_sv g)) s = (w1, o1) ->
  world_ok w1 -> forall sv, sv_w sv = w1 -> named (effect farith order g en s sv o1).
Proof using.
  intros NG SO SE EX W1 sv E. pose proof NG as (W & F & D & N). destruct W as [(A & B & U) LG].
  assert (SAME : forall l d, Forall (fun kn : ent * node => fid_ok (nd_file (snd kn))) l -> Forall del_named d -> named (mk_gst sv l (g_files g) (g_tasks g) d)).
  { intros l d X Y. split; [cbn [g_sv]; rewrite E; exact W1|]. split; [exact F|]. split; [exact Y|exact X]. }
  assert (ST : forall n, Forall (fun kn : ent * node => fid_ok (nd_file (snd kn))) (still n (g_nodes g))).
  { intros n. unfold still. apply Forall_forall. intros x I. apply filter_In in I as [I _]. rewrite Forall_forall in N. exact (N _ I). }
  unfold effect. destruct s as [k p nx|k p|k f ex|e fs p nx|e ak|e f ex|k o|k o|k|]; try (apply SAME; assumption); cbn [stmt_ok] in SO.
  - destruct (did o1) eqn:DI; [|apply SAME; assumption]. apply SAME; [apply ST|]. destruct (aget bseq k _) as [sp|] eqn:G; [|exact D].
    apply Forall_app. split; [exact D|]. constructor; [|constructor]. exact (proj1 (get_ok _ _ _ _ G A)).
  - destruct SO as [SO1 _].
    assert (FD : did o1 = true \/ o1 = OErr ErrServer -> fid_ok (new_fid e (e_uuid en) (w_ns (sv_w (g_sv g))))).
    { intros DE. split; [|exact SO1]. cbn [new_fid fst]. unfold exec_stmt in EX. destruct (negb (se_root se)); [injection EX as _ <-; destruct DE as [X|X]; discriminate X|].
      unfold exec_create_model in EX. destruct (process_create_model _ _ _) as [x|lay] eqn:PC.
      - injection EX as _ <-. destruct DE as [X|X]; [discriminate X|]. injection X as ->. exfalso. clear - PC. revert PC. unfold process_create_model.
        repeat match goal with |- context [match ?x with _ => _ end] => destruct x end; discriminate.
      - destruct (aget _ (fst e) _) as [sp|] eqn:G; [exact (proj1 (get_ok _ _ _ _ G A))|]. injection EX as _ <-. destruct DE as [X|X]; discriminate X. }
    destruct (did o1) eqn:DI.
    + destruct (aget ent_eqb e _); [|apply SAME; assumption]. specialize (FD (or_introl eq_refl)). split; [cbn [g_sv]; rewrite E; exact W1|].
      split; [apply put_ok; [exact FD|exact F]|]. split; [exact D|]. apply put_ok; [exact FD|exact N].
    + destruct o1 as [| |[]|]; try (apply SAME; assumption). destruct (e_init _); [|apply SAME; assumption]. specialize (FD (or_intror eq_refl)).
      split; [cbn [g_sv]; rewrite E; exact W1|]. split; [apply put_ok; [exact FD|exact F]|]. split; [|exact N]. cbn [g_dels]. destruct (w_iffy _); [exact D|].
      apply Forall_app. split; [exact D|]. constructor; [exact FD|constructor].
  - assert (X : forall nd, aget ent_eqb e (g_nodes g) = Some nd -> named (mk_gst sv (aput ent_eqb e (mk_node (fst (rstep farith order (nd_m nd) (RAlter ak true))) (nd_fl nd) (nd_file nd)) (g_nodes g)) (g_files g) (g_tasks g) (g_dels g))).
    { intros nd GN. apply SAME; [|exact D]. apply put_ok; [|exact N]. exact (node_named g e nd NG GN). }
    destruct o1 as [| | |]; try (apply SAME; assumption); destruct (aget ent_eqb e (g_nodes g)) as [nd|] eqn:GN; try (apply SAME; assumption). apply X. reflexivity.
  - destruct (did o1) eqn:DI; [|apply SAME; assumption]. apply SAME; [apply ST|]. destruct (file_of _ e) as [[fd lay]|] eqn:FO; [|exact D].
    apply Forall_app. split; [exact D|]. constructor; [|constructor]. cbn [del_named].
    unfold exec_stmt in EX. destruct (negb (se_root se)); [injection EX as _ <-; discriminate DI|].
    unfold exec_drop_model in EX. unfold file_of in FO. destruct (aget bseq (fst e) _) as [sp|] eqn:G; [|discriminate FO]. destruct (aget ent_eqb e _) as [mm|] eqn:GM; [|discriminate FO].
    injection FO as <- _. destruct (get_ok _ _ _ _ G A) as [K1 K2]. cbn [fst snd] in K1, K2. split; [exact K1|]. cbn [fst snd].
    destruct (set_has (snd e) (sp_models sp)) eqn:SH; cbn [negb] in EX; [|injection EX as _ <-; destruct ex; discriminate DI].
    rewrite Forall_forall in K2. apply K2. apply in_set_has. exact SH.
Qed.

Lemma gstep_named g o g' r : named g -> match o with GDdl _ _ s => stmt_ok s | _ => True end -> gstep g o = Some (g', r) -> named g'.
Proof using order_perm.
  intros NG SO H. pose proof NG as (W & F & D & N).
  assert (W' : world_ok (sv_w (g_sv g'))) by (eapply gstep_ok; [exact order_perm|exact W|exact SO|exact H]).
  destruct o as [u p|i en s|i id q|id|i|id w|id w|id u|i ok| |key salt]; cbn [WholeModel.gstep] in H.
  - unfold step in H. destruct (login _ _ _ _); injection H as <- _; (split; [exact W'|]); repeat (split; try assumption).
  - destruct (_ && _); [injection H as <- _; exact NG|]. cbn [step] in H. destruct (nth_error _ i) as [se|] eqn:SE; [|injection H as <- _; split; [exact W'|]; repeat (split; try assumption)].
    destruct (exec_stmt _ _ _ _ _ _) as [w1 o1] eqn:EX. injection H as <- _. rewrite effect_sv in W'. eapply effect_named; try eassumption. reflexivity.
  - destruct (nth_error _ i); [|injection H as <- _; exact NG]. destruct (negb _); [injection H as <- _; exact NG|]. destruct (aget ent_eqb id _) as [nd|] eqn:GN; [|injection H as <- _; exact NG].
    destruct (rstep _ _ _ _). injection H as <- _. split; [exact W'|]. split; [exact F|]. split; [exact D|]. apply put_ok; [exact (node_named g id nd NG GN)|exact N].
  - destruct (aget ent_eqb id _) as [nd|] eqn:GN; [|injection H as <- _; exact NG]. destruct (bstep _ _ _ _). injection H as <- _. apply put_back_named; [exact NG|exact (node_named g id nd NG GN)].
  - destruct (nth_error _ i) as [t|]; [|injection H as <- _; exact NG]. destruct (aget ent_eqb _ _) as [nd|] eqn:GN; [|injection H as <- _; split; [exact W'|]; repeat (split; try assumption)].
    destruct (negb _); [injection H as <- _; split; [exact W'|]; repeat (split; try assumption)|]. destruct (nd_fl nd); [injection H as <- _; exact NG|]. destruct (bstep _ _ _ _). injection H as <- _.
    apply put_back_named; [repeat (split; try assumption); apply W|exact (node_named g _ nd NG GN)].
  - destruct (aget ent_eqb id _) as [nd|] eqn:GN; [|injection H as <- _; exact NG]. destruct (bstep _ _ _ _). injection H as <- _. apply put_back_named; [exact NG|exact (node_named g id nd NG GN)].
  - destruct (aget ent_eqb id _) as [nd|] eqn:GN; [|injection H as <- _; exact NG]. destruct (bstep _ _ _ _). injection H as <- _. apply put_back_named; [exact NG|exact (node_named g id nd NG GN)].
  - destruct (aget ent_eqb id _) as [nd|] eqn:GN; [|injection H as <- _; exact NG]. destruct (negb _); [injection H as <- _; exact NG|]. destruct (bstep _ _ _ _). injection H as <- _.
    apply put_back_named; [exact NG|exact (node_named g id nd NG GN)].
  - destruct (nth_error _ i) as [d|] eqn:ND; [|injection H as <- _; exact NG].
    assert (DD : Forall del_named (del_nth i (g_dels g))).
    { apply Forall_forall. intros x I. rewrite Forall_forall in D. apply D. unfold del_nth in I. rewrite <- (firstn_skipn i (g_dels g)). apply in_app_or in I as [I|I]; apply in_or_app; [left; exact I|right].
      clear - I. revert I. generalize (g_dels g). induction i as [|i IH]; intros [|y l] I; cbn [skipn] in *; try contradiction I; [right; exact I|exact (IH _ I)]. }
    destruct ok; injection H as <- _; (split; [exact W'|]).
    + split; [|split; [exact DD|exact N]]. cbn [g_files]. apply Forall_forall. intros x I. apply filter_In in I as [I _]. rewrite Forall_forall in F. exact (F _ I).
    + split; [exact F|]. split; [|exact N]. apply Forall_app. split; [exact DD|]. constructor; [|constructor]. apply nth_error_In in ND. rewrite Forall_forall in D. exact (D _ ND).
  - cbn [step] in H. injection H as <- _. split; [exact W'|]. repeat (split; try assumption).
  - destruct (flushing g); [injection H as <- _; exact NG|]. cbn [step] in H. destruct (boot _ _ _ _ _) as [w1|] eqn:BO; [|discriminate H].
    destruct (load_nodes _ _ _ _) as [nodes|] eqn:LN; [|discriminate H]. injection H as <- _. split; [exact W'|]. split; [|split; [constructor|]].
    + cbn [g_files]. apply Forall_forall. intros x I. apply in_map_iff in I as (y & <- & I). rewrite Forall_forall in F. exact (F _ I).
    + exact (load_named _ _ _ F _ _ LN).
Qed.
Lemma whist_named C key salt h x : whist C key salt h x -> named (x_g x).
Proof using order_perm.
  intros H. induction H as [|h x e x' b d H IH ST _]; [|eapply wstep_keep; [exact gstep_named|exact IH|exact ST]].
  split; [apply start_ok|]. repeat split; constructor.
Qed.

(** the text of a uuid: hexadecimal digits and hyphens, different for different uuids *)
Variable uuid : N -> bytes.
Hypothesis uuid_chars : forall u b, In b (uuid u) -> jhex b \/ b = x2d.
Hypothesis uuid_inj : forall u v, uuid u = uuid v -> u = v.

(** where the file of a model is, and which directory a deletion removes with all that is below it *)
Definition path_of (f : fid) : bytes := model_path uuid (fst (fst f)) (snd (fst f)) (fst (snd f)) (snd (snd f)).
Definition target (d : dtask) : bytes :=
  match d with DelModel f => model_dir uuid (fst (fst f)) (snd (fst f)) (fst (snd f)) (snd (snd f)) | DelSpace k u => space_dir uuid k u end.
Definition under (path dir : bytes) : Prop := exists rest, path = dir ++ x2f :: rest.

(** C62, whatever bytes clients send, with restarts: every file of the server is two directories below
    "data", and what is to be deleted is the directory of a space or of a model, directly below "data" or
    one further down. *)
Theorem C62_wire_inside : forall C key salt h x, whist C key salt h x ->
  (forall f df, aget fid_eqb f (g_files (x_g x)) = Some df ->
     exists s t, segment s /\ segment t /\ path_of f = below [bstr "data"; s; t; bstr "data.db-btlog"]) /\
  (forall id nd, aget ent_eqb id (g_nodes (x_g x)) = Some nd ->
     exists s t, segment s /\ segment t /\ path_of (nd_file nd) = below [bstr "data"; s; t; bstr "data.db-btlog"]) /\
  (forall d, In d (g_dels (x_g x)) -> exists s, segment s /\
     (target d = below [bstr "data"; s] \/ exists t, segment t /\ target d = below [bstr "data"; s; t])).
Proof using order_perm uuid_chars.
  intros C key salt h x H. apply whist_named in H. pose proof H as (_ & F & D & _).
  assert (X : forall f, fid_ok f -> exists s t, segment s /\ segment t /\ path_of f = below [bstr "data"; s; t; bstr "data.db-btlog"]).
  { intros f [F1 F2]. destruct (C62_inside uuid uuid_chars _ (snd (fst f)) _ (snd (snd f)) F1 F2) as (_ & s & t & S1 & S2 & _ & _ & E). eauto. }
  split; [|split].
  - intros f df G. apply X. exact (get_fid _ _ _ F G).
  - intros id nd G. apply X. exact (node_named _ _ _ H G).
  - intros d I. rewrite Forall_forall in D. specialize (D d I). destruct d as [f|k u]; cbn [del_named target] in *.
    + destruct D as [F1 F2]. destruct (C62_inside uuid uuid_chars _ (snd (fst f)) _ (snd (snd f)) F1 F2) as (_ & s & t & S1 & S2 & _ & E & _). exists s. split; [exact S1|]. right. eauto.
    + destruct (C62_inside uuid uuid_chars k u k u D D) as ((s & S1 & E) & _). eauto.
Qed.

Lemma under_space k u k' u' m v : is_word k -> is_word k' -> under (model_path uuid k' u' m v) (space_dir uuid k u) -> k = k' /\ u = u'.
Proof using uuid_chars uuid_inj.
  intros K K' (rest & E). unfold model_path, model_dir, space_dir in E. rewrite <- !app_assoc in E. apply app_inv_head in E.
  cbn [bstr list_byte_of_string app] in E. symmetry in E.
  apply (name_uuid uuid) in E; auto. destruct E as [-> E]. split; [reflexivity|].
  change (uuid u ++ x2f :: rest = uuid u' ++ x2f :: (bstr "mdl_" ++ m ++ bstr "-" ++ uuid v ++ bstr "/data.db-btlog")) in E.
  apply slash_split in E; [|apply (uuid_noslash uuid uuid_chars)..]. apply uuid_inj. exact (proj1 E).
Qed.
Lemma under_model k u m v k' u' m' v' : is_word k -> is_word k' -> is_word m -> is_word m' ->
  under (model_path uuid k' u' m' v') (model_dir uuid k u m v) -> (k = k' /\ u = u') /\ m = m' /\ v = v'.
Proof using uuid_chars uuid_inj.
  intros K K' M M' (rest & E). assert (E0 := E). unfold model_path, model_dir in E. rewrite <- !app_assoc in E. apply app_inv_head in E.
  cbn [bstr list_byte_of_string app] in E. symmetry in E.
  apply (name_uuid uuid) in E; auto. destruct E as [-> E]. 
  change (uuid u ++ x2f :: (bstr "mdl_" ++ m ++ x2d :: uuid v ++ x2f :: rest) = uuid u' ++ x2f :: (bstr "mdl_" ++ m' ++ x2d :: uuid v' ++ x2f :: bstr "data.db-btlog")) in E.
  apply slash_split in E; [|apply (uuid_noslash uuid uuid_chars)..]. destruct E as [EU E]. apply app_inv_head in E.
  apply (name_uuid uuid) in E; auto. destruct E as [-> E]. apply slash_split in E; [|apply (uuid_noslash uuid uuid_chars)..]. destruct E as [EV _].
  repeat split; auto.
Qed.

(** C62. A deletion takes exactly the files whose path is below the directory named, and on the server as
    it stands these are the files of that model or of that space. *)
Theorem C62_wire_deletion : forall C key salt h x, whist C key salt h x ->
  forall i d g', nth_error (g_dels (x_g x)) i = Some d -> gstep (x_g x) (GDelete i true) = Some (g', GoDone) ->
  forall f, aget fid_eqb f (g_files g') = (if hit d f then None else aget fid_eqb f (g_files (x_g x))) /\
    (aget fid_eqb f (g_files (x_g x)) <> None -> (hit d f = true <-> under (path_of f) (target d))).
Proof using order_perm uuid_chars uuid_inj.
  intros C key salt h x H i d g' ND HS f. apply whist_named in H. destruct H as (_ & F & D & _).
  assert (DN : del_named d) by (apply nth_error_In in ND; rewrite Forall_forall in D; exact (D _ ND)). split.
  - cbn [WholeModel.gstep] in HS. rewrite ND in HS. injection HS as <-. cbn [g_files].
    clear - f. induction (g_files (x_g x)) as [|[k v] l IH]; [destruct (hit d f); reflexivity|]. cbn [filter fst].
    destruct (hit d k) eqn:HK; cbn [negb].
    + rewrite IH. cbn [aget]. destruct (fid_eqb f k) eqn:E; [|reflexivity]. apply fid_eqb_eq in E. subst k. rewrite HK. reflexivity.
    + cbn [aget]. destruct (fid_eqb f k) eqn:E; [|exact IH]. apply fid_eqb_eq in E. subst k. rewrite HK. reflexivity.
  - intros G. destruct (aget fid_eqb f (g_files (x_g x))) as [df|] eqn:GF; [|destruct (G eq_refl)]. pose proof (get_fid _ _ _ F GF) as [F1 F2].
    destruct f as [[k u] [m v]]. cbn [fst snd path_of] in *. destruct d as [[[k' u'] [m' v']]|k' u']; cbn [hit target path_of fst snd] in *.
    + split.
      * intros E. apply fid_eqb_eq in E. injection E as -> -> -> ->. exists (bstr "data.db-btlog"). reflexivity.
      * intros U. destruct DN as [D1 D2]. apply under_model in U; auto. destruct U as ((-> & ->) & -> & ->). apply fid_eqb_eq. reflexivity.
    + split.
      * intros E. apply andb_true_iff in E as [E1 E2]. apply bseq_eq in E1. apply N.eqb_eq in E2. subst. exists (bstr "mdl_" ++ m ++ bstr "-" ++ uuid v ++ bstr "/data.db-btlog").
        unfold path_of, model_path, model_dir, space_dir. cbn [fst snd]. rewrite <- !app_assoc. reflexivity.
      * intros U. apply under_space in U; auto. destruct U as [-> ->]. rewrite bseq_refl, N.eqb_refl. reflexivity.
Qed.

(** C62. What is waiting to be deleted never contains the file of a model that exists, and the files of two
    models are different. Conditions as C108. *)
Theorem C62_wire_living_partial : (forall l, Permutation (order l) l) -> forall C key salt h x, whist C key salt h x -> Forall usual (trace h) -> NoDup (WholeSpec.used (trace h)) ->
  forall id nd, aget ent_eqb id (g_nodes (x_g x)) = Some nd ->
  (exists u, path_of (nd_file nd) = model_path uuid (fst id) u (snd id) (nd_uuid nd)) /\ (exists df, aget fid_eqb (nd_file nd) (g_files (x_g x)) = Some df) /\
  (forall d, In d (g_dels (x_g x)) -> ~ under (path_of (nd_file nd)) (target d)) /\
  (forall id' nd', aget ent_eqb id' (g_nodes (x_g x)) = Some nd' -> id' <> id -> path_of (nd_file nd') <> path_of (nd_file nd)).
Proof using order_perm uuid_chars uuid_inj.
  intros OP C key salt h x H US NU id nd GN. pose proof (whist_named _ _ _ _ _ H) as NM. pose proof NM as (_ & F & D & _).
  pose proof (ghist_whole farith order hash verify OP C key salt _ _ (whist_ghist farith order hash verify u8 fl ftoa _ _ _ _ _ H) US NU) as W.
  destruct (node_file order hash verify _ _ _ _ _ _ W GN) as (A1 & A2 & A3 & _). pose proof (node_named _ _ _ NM GN) as FO.
  split; [unfold path_of; rewrite A1, A2, A3; eauto|]. split; [destruct (aget fid_eqb (nd_file nd) (g_files (x_g x))) as [df|] eqn:GF; [eauto|destruct (wo_file _ _ _ _ _ _ _ W _ _ GN GF)]|]. split.
  - intros d I U. pose proof (wo_hit _ _ _ _ _ _ _ W _ _ _ I GN) as HI. rewrite Forall_forall in D. specialize (D d I). destruct FO as [F1 F2].
    destruct (nd_file nd) as [[k u] [m v]]. cbn [fst snd path_of] in *. destruct d as [[[k' u'] [m' v']]|k' u']; cbn [hit target path_of fst snd del_named] in *.
    + destruct D as [D1 D2]. apply under_model in U; auto. destruct U as ((-> & ->) & -> & ->). rewrite (proj2 (fid_eqb_eq _ _) eq_refl) in HI. discriminate HI.
    + apply under_space in U; auto. destruct U as [-> ->]. rewrite bseq_refl, N.eqb_refl in HI. discriminate HI.
  - intros id' nd' GN' NE E. pose proof (node_named _ _ _ NM GN') as FO'. apply (files_differ order hash verify _ _ _ _ _ _ _ _ W GN' GN NE).
    destruct FO as [F1 F2], FO' as [F3 F4]. destruct (nd_file nd) as [[k u] [m v]], (nd_file nd') as [[k' u'] [m' v']]. cbn [fst snd path_of] in *.
    assert (U : under (model_path uuid k' u' m' v') (model_dir uuid k u m v)) by (exists (bstr "data.db-btlog"); exact E).
    apply under_model in U; auto. destruct U as ((-> & ->) & -> & ->). reflexivity.
Qed.
End Run.
Print Assumptions C62_wire_inside.
Print Assumptions C62_wire_deletion.
Print Assumptions C62_wire_living_partial.

(** a model is dropped and made again, then the deletion of the first one runs *)
Definition px_evs : list wev :=
  vx_ev1 ++ [vx_q 0 13 "create model shop.others(primary id: uint64, n: uint8)"; vx_q 0 0 "drop model shop.items"; vx_q 0 14 "create model shop.items(primary id: uint64, n: uint8)"].
Example C62_wire_example : vx_whist vx_any gx_pw 0 (vx_h px_evs) (vx_x px_evs) /\ Forall usual (trace (vx_h px_evs)) /\ NoDup (WholeSpec.used (trace (vx_h px_evs))) /\
  map (fun kf : fid * dfile => path_of p_uuid (fst kf)) (g_files (x_g (vx_x px_evs))) =
    map (fun s => bstr "data/shop-aaaaaaaaaaa-0/mdl_" ++ bstr s ++ bstr "-0/data.db-btlog") ["items-aaaaaaaaaaaa"; "others-aaaaaaaaaaaaa"; "items-aaaaaaaaaaaaaa"]%string /\
  map (target p_uuid) (g_dels (x_g (vx_x px_evs))) = [bstr "data/shop-aaaaaaaaaaa-0/mdl_items-aaaaaaaaaaaa-0"] /\
  option_map (fun x => map (fun kf : fid * dfile => snd (snd (fst kf))) (g_files (fst x))) (gstep noarith idorder gx_hash gx_verify (x_g (vx_x px_evs)) (GDelete 0 true)) = Some [13; 14]%N.
Proof.
  split; [apply vx_hist; [vm_compute; discriminate|vm_compute; reflexivity]|]. split; [apply usualb_ok; vm_compute; reflexivity|]. split; [apply freshb_ok; vm_compute; reflexivity|].
  split; [vm_compute; reflexivity|]. split; vm_compute; reflexivity.
Qed.
