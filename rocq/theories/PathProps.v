(** C62: names of clients and paths of the file system. *)
From Coq Require Import Strings.String List NArith ZArith Bool Arith Lia Permutation.
From Verif Require Import Bytes DataModel CodecModel AMap TypeModel GnsModel RowModel LexModel LexSpec ParseModel ParseSpec
  DdlModel ExecModel InspectModel JsonSpec InspectProofs InspectReach InspectProps PathModel.
Import ListNotations.

(** a path of directories below the working directory: nonempty names without slash, none of them "."
    or ".." *)
Definition segment (s : bytes) : Prop := s <> [] /\ ~ In x2f s /\ s <> [x2e] /\ s <> [x2e; x2e].
Fixpoint below (segs : list bytes) : bytes :=
  match segs with [] => [] | [s] => s | s :: r => s ++ x2f :: below r end.

Section Server.
Variable order : list (bytes * field) -> list (bytes * field).
Hypothesis order_perm : forall l, Permutation l (order l).
Variable hash : bytes -> N -> bytes.
Variable uuid_text uuid_bin : nat -> bytes.
Variable now_secs : nat -> N.
Variable data dans : Type.
Variable dml : request -> ns -> data -> data * dans.
Variable inspect : session -> ns -> data -> inspect_stmt -> dans.
Variable u8 : bytes -> bool.
Variable fl : bytes -> option N.
Notation served := (served order hash uuid_text uuid_bin now_secs data dans dml inspect u8 fl).

(** C62. All names on a server are words (letters, digits and underscores, not starting with a digit). *)
Theorem C62_names w d : served w d ->
  (forall k s, aget bseq k (n_spaces (w_ns w)) = Some s -> is_word k /\ Forall is_word (sp_models s)) /\
  (forall e m c, aget ent_eqb e (n_models (w_ns w)) = Some m -> In c (lo_fields (md_lay m)) -> is_word (fst c)) /\
  (forall u h, aget bseq u (n_users (w_ns w)) = Some h -> is_word u).
Proof.
  intros S. apply served_ok in S; [|exact order_perm]. destruct S as (A & B & U). repeat split.
  - exact (proj1 (get_ok _ _ _ _ H A)).
  - exact (proj2 (get_ok _ _ _ _ H A)).
  - intros e m c G I. destruct (get_ok_e _ _ _ _ G B) as (e' & M). cbn in M. unfold model_ok in M. rewrite Forall_forall in M. exact (proj1 (M c I)).
  - intros u h G. exact (get_ok _ _ _ _ G U).
Qed.

(** the uuids in paths: their text is made of hexadecimal digits and hyphens, different for different
    uuids *)
Variable uuid : N -> bytes.
Hypothesis uuid_chars : forall u b, In b (uuid u) -> jhex b \/ b = x2d.
Hypothesis uuid_inj : forall u v, uuid u = uuid v -> u = v.

Lemma word_byte k b : is_word k -> In b k -> wbyte b.
Proof. intros W I. apply word_wbytes in W. rewrite Forall_forall in W. auto. Qed.
Lemma wbyte_no b c : negb (N.leb 97 (b2n (low c)) && N.leb (b2n (low c)) 122) && negb (N.leb 48 (b2n c) && N.leb (b2n c) 57) && negb (beq c x5f) = true ->
  wbyte b -> b <> c.
Proof. intros H W ->. apply (not_wbyte c H). exact W. Qed.
Lemma hex_noslash b : jhex b \/ b = x2d -> b <> x2f.
Proof. intros [H| ->]; [|discriminate]. intros ->. unfold jhex, jdigit in H. cbn in H. lia. Qed.
Lemma seg_ok p k u : forallb (fun b => negb (beq b x2f) && negb (beq b x2e)) p = true -> is_word k -> segment (p ++ k ++ bstr "-" ++ uuid u).
Proof.
  intros P W. destruct k as [|b k]; [contradiction|].
  assert (NB : b <> x2e) by (apply wbyte_no; [reflexivity|]; eapply word_byte; [exact W | left; reflexivity]).
  assert (NP : forall c, In c p -> c <> x2f /\ c <> x2e).
  { intros c I. rewrite forallb_forall in P. specialize (P c I). apply andb_prop in P. destruct P as [P1 P2]. split; intros ->; discriminate. }
  assert (NO : forall s, p ++ (b :: k) ++ bstr "-" ++ uuid u <> x2e :: s).
  { intros s E. destruct p as [|c p]; cbn in E; [congruence|]. injection E as -> _. apply (proj2 (NP x2e (or_introl eq_refl))). reflexivity. }
  split; [destruct p; discriminate|]. split; [|split; apply NO].
  intros I. apply in_app_or in I. destruct I as [I|I]; [apply (proj1 (NP _ I)); reflexivity|]. apply in_app_or in I. destruct I as [I|I].
  - revert I. intros I. apply (wbyte_no x2f x2f eq_refl); [eapply word_byte; eassumption|reflexivity].
  - apply in_app_or in I. destruct I as [[I|[]]|I]; [discriminate I|]. exact (hex_noslash _ (uuid_chars _ _ I) eq_refl).
Qed.

(** C62. The directory of a space lies directly below data, that of a model directly below that of its
    space. *)
Theorem C62_inside k u m v : is_word k -> is_word m ->
  (exists s, segment s /\ space_dir uuid k u = below [bstr "data"; s]) /\
  (exists s t, segment s /\ segment t /\ space_dir uuid k u = below [bstr "data"; s] /\ model_dir uuid k u m v = below [bstr "data"; s; t] /\
     model_path uuid k u m v = below [bstr "data"; s; t; bstr "data.db-btlog"]).
Proof.
  intros K M. pose proof (seg_ok [] k u eq_refl K) as A. pose proof (seg_ok (bstr "mdl_") m v eq_refl M) as B. split.
  - eexists. split; [exact A|]. reflexivity.
  - exists ([] ++ k ++ bstr "-" ++ uuid u), (bstr "mdl_" ++ m ++ bstr "-" ++ uuid v). split; [exact A|]. split; [exact B|]. split; [reflexivity|].
    unfold model_path, model_dir. cbn. repeat (rewrite <- ?app_assoc; cbn [app]). split; reflexivity.
Qed.

Lemma slash_split a : forall b r s, ~ In x2f a -> ~ In x2f b -> a ++ x2f :: r = b ++ x2f :: s -> a = b /\ r = s.
Proof.
  induction a as [|c a IH]; intros [|e b] r s A B E; cbn in E.
  - injection E as ->. auto.
  - injection E as <- _. elim B. left. reflexivity.
  - injection E as -> _. elim A. left. reflexivity.
  - injection E as -> E. destruct (IH b r s) as [-> ->]; auto; intros I; [apply A|apply B]; right; exact I.
Qed.
Lemma name_uuid k k' u u' r r' : is_word k -> is_word k' -> k ++ x2d :: uuid u ++ r = k' ++ x2d :: uuid u' ++ r' -> k = k' /\ uuid u ++ r = uuid u' ++ r'.
Proof.
  intros K K' E. assert (N : ~ wbyte x2d) by (apply not_wbyte; reflexivity).
  apply split_word in E; [|apply word_wbytes; assumption|apply word_wbytes; assumption|exact N|exact N]. destruct E as [-> E]. injection E as E. auto.
Qed.
Lemma uuid_noslash u : ~ In x2f (uuid u).
Proof. intros I. exact (hex_noslash _ (uuid_chars _ _ I) eq_refl). Qed.

(** C62. Different spaces and models have different directories: what is created or removed for one is
    never that of another. *)
Theorem C62_distinct k u k' u' m v m' v' : is_word k -> is_word k' -> is_word m -> is_word m' ->
  (space_dir uuid k u = space_dir uuid k' u' -> k = k' /\ u = u') /\
  (model_dir uuid k u m v = model_dir uuid k' u' m' v' -> k = k' /\ u = u' /\ m = m' /\ v = v') /\
  space_dir uuid k u <> model_dir uuid k' u' m' v'.
Proof.
  intros K K' M M'. unfold space_dir, model_dir. repeat split.
  - apply app_inv_head in H. cbn [bstr list_byte_of_string app] in H. rewrite <- (app_nil_r (uuid u)), <- (app_nil_r (uuid u')) in H.
    apply name_uuid in H; auto. tauto.
  - apply app_inv_head in H. cbn [bstr list_byte_of_string app] in H. rewrite <- (app_nil_r (uuid u)), <- (app_nil_r (uuid u')) in H.
    apply name_uuid in H; auto. rewrite !app_nil_r in H. apply uuid_inj. tauto.
  - revert H. intros H. apply app_inv_head in H. cbn in H. apply name_uuid in H; auto. destruct H as [H1 H]. apply slash_split in H; [|apply uuid_noslash..].
    destruct H as [H2 H]. injection H as H. exact H1.
  - revert H. intros H. apply app_inv_head in H. cbn in H. apply name_uuid in H; auto. destruct H as [H1 H]. apply slash_split in H; [|apply uuid_noslash..].
    destruct H as [H2 H]. apply uuid_inj. exact H2.
  - revert H. intros H. apply app_inv_head in H. cbn in H. apply name_uuid in H; auto. destruct H as [H1 H]. apply slash_split in H; [|apply uuid_noslash..].
    destruct H as [H2 H]. injection H as H. rewrite <- (app_nil_r (uuid v)), <- (app_nil_r (uuid v')) in H. apply name_uuid in H; auto. tauto.
  - revert H. intros H. apply app_inv_head in H. cbn in H. apply name_uuid in H; auto. destruct H as [H1 H]. apply slash_split in H; [|apply uuid_noslash..].
    destruct H as [H2 H]. injection H as H. rewrite <- (app_nil_r (uuid v)), <- (app_nil_r (uuid v')) in H. apply name_uuid in H; auto. rewrite !app_nil_r in H.
    apply uuid_inj. tauto.
  - intros H. apply app_inv_head in H. cbn in H. rewrite <- (app_nil_r (uuid u)) in H. apply name_uuid in H; auto. destruct H as [_ H]. rewrite app_nil_r in H.
    apply (uuid_noslash u). rewrite H. apply in_or_app. right. left. reflexivity.
Qed.
End Server.
Print Assumptions C62_names.
Print Assumptions C62_inside.
Print Assumptions C62_distinct.

(** the hypotheses about uuids can be met: a hyphen after [u] digits *)
Definition p_uuid (u : N) : bytes := repeat x61 (N.to_nat u) ++ [x2d; x30].
Example C62_case : (forall u b, In b (p_uuid u) -> jhex b \/ b = x2d) /\ (forall u v, p_uuid u = p_uuid v -> u = v) /\
  is_word (bstr "sp_1") /\ is_word (bstr "_m") /\
  model_path p_uuid (bstr "sp_1") 3 (bstr "_m") 2 = bstr "data/sp_1-aaa-0/mdl__m-aa-0/data.db-btlog".
Proof.
  split; [|split; [|split; [|split]]].
  - intros u b I. apply in_app_or in I. destruct I as [I|[<-|[<-|[]]]]; auto; [|left; left; unfold jdigit; cbn; lia].
    apply repeat_spec in I. subst b. left. right. left. cbn. lia.
  - intros u v E. apply (f_equal (@length byte)) in E. unfold p_uuid in E. rewrite !app_length, !repeat_length in E. cbn in E. lia.
  - split; [left; unfold letter; cbn; lia|]. repeat apply Forall_cons; try apply Forall_nil; unfold wbyte, letter; cbn; auto; lia.
  - split; [right; reflexivity|]. repeat apply Forall_cons; try apply Forall_nil. left. unfold letter. cbn. lia.
  - reflexivity.
Qed.
