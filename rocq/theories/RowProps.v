(** C18-C23, C57-C59: rows of one model. *)
From Coq Require Import Strings.String List NArith ZArith Bool Lia Permutation.
From Verif Require Import Bytes AMap DataModel CodecModel CodecProofs DictModel TypeModel GnsCodecModel GnsModel GnsProofs RowModel RowSpec RowProofs RowTable RowUpd RowAlter RowLemmas.
Import ListNotations.
Local Open Scope N_scope.

(** ** Concrete models used by the examples *)

Definition f_id : bytes := bstr "id"%string.
Definition f_n : bytes := bstr "n"%string.
Definition f_s : bytes := bstr "s"%string.
Definition f_l : bytes := bstr "l"%string.
(** [create model t (primary id: uint64, n: uint8, null s: string, l: list {type: uint8})] *)
Definition ex_lay : layout :=
  mk_layout 7 f_id (qsel_tsel QU64)
    [(f_id, mk_field false [qsel_tsel QU64]); (f_n, mk_field false [qsel_tsel QU8]);
     (f_s, mk_field true [TsStr]); (f_l, mk_field false [TsList; qsel_tsel QU8])].
Lemma ex_lay_ok : lay_ok ex_lay.
Proof.
  split; [|split].
  - cbn. repeat constructor; cbn; intros H; repeat (destruct H as [H|H]; [discriminate|]); contradiction.
  - repeat constructor; discriminate.
  - eexists. split; [reflexivity|]. split; reflexivity.
Qed.
Definition noarith (o : aop) (a b : N) : N := 0.
Definition idorder (l : fieldmap) : fieldmap := l.
Lemma idorder_perm l : Permutation (idorder l) l.
Proof. apply Permutation_refl. Qed.

(** running statements one after the other *)
Fixpoint rrun (s : mst) (qs : list rstmt) : mst * list (rstmt * rout) :=
  match qs with
  | [] => (s, [])
  | q :: qs' => let '(s1, r) := rstep noarith idorder s q in
                let '(s2, h) := rrun s1 qs' in (s2, (q, r) :: h)
  end.
Lemma rhist_cons s q s1 r h s2 : rstep noarith idorder s q = (s1, r) -> r <> RoUb ->
  rhist noarith idorder s1 h s2 -> rhist noarith idorder s ((q, r) :: h) s2.
Proof.
  intros H HU R. induction R as [s1|s1 h s3 q' s4 r' R IH HS HU'].
  - apply (rh_snoc _ _ s [] s q s1 r); auto. constructor.
  - change ((q, r) :: h ++ [(q', r')]) with (((q, r) :: h) ++ [(q', r')]).
    apply rh_snoc with (s1 := s3); auto.
Qed.
Lemma rrun_hist qs : forall s, Forall (fun e => snd e <> RoUb) (snd (rrun s qs)) ->
  rhist noarith idorder s (snd (rrun s qs)) (fst (rrun s qs)).
Proof.
  induction qs as [|q qs IH]; intros s H; cbn [rrun] in *; [constructor|].
  destruct (rstep noarith idorder s q) as [s1 r] eqn:E. specialize (IH s1).
  destruct (rrun s1 qs) as [s2 h]. cbn [fst snd] in *. inversion H; subst. eapply rhist_cons; eauto.
Qed.
Ltac no_ub := repeat (constructor; [discriminate|]); constructor.
Definition arg_okb (c : cell) : bool := match c with CNull => true | _ => no_null c end.
Definition stmt_okb (q : rstmt) : bool :=
  match q with RInsert (InsTuple t) => forallb arg_okb t | RInsert (InsMap _) => false | _ => true end.
Lemma stmt_okb_ok h : forallb (fun e : rstmt * rout => stmt_okb (fst e)) h = true -> Forall (fun e => stmt_ok (fst e)) h.
Proof.
  rewrite forallb_forall, Forall_forall. intros H e He. specialize (H e He). destruct (fst e) as [[t|m]| | | | |]; try exact Logic.I; try discriminate H.
  cbn in *. rewrite forallb_forall in H. apply Forall_forall. intros c Hc. specialize (H c Hc).
  destruct c; (left; reflexivity) || (right; exact H).
Qed.
Lemma dml_okb_ok h : forallb (fun e : rstmt * rout => stmt_okb (fst e) && match fst e with RAlter _ _ => false | _ => true end) h = true ->
  Forall (fun e => dml_ok (fst e)) h.
Proof.
  intros H. assert (S : Forall (fun e => stmt_ok (fst e)) h).
  { apply stmt_okb_ok. rewrite forallb_forall in *. intros e He. specialize (H e He). apply andb_true_iff in H. tauto. }
  rewrite Forall_forall in *. rewrite forallb_forall in H. intros e He. specialize (H e He). specialize (S e He).
  apply andb_true_iff in H as [_ H]. destruct (fst e); try exact Logic.I; try exact S. discriminate H.
Qed.
Definition ins (k n : N) : rstmt := RInsert (InsTuple [CQw QU64 k; CQw QU64 n; CNull; CList [CQw QU64 1]]).
Definition at_key (k : N) : where_ := [(f_id, (OpEq, LUInt k))].

(** ** C18: INSERT *)

(** In every state reached by any statements (schema changes included), an INSERT succeeds exactly when
    it supplies the declared columns with values of their types and its key is free; it never panics.
    What it stores is exactly the supplied values, each with the declared type and width, and it
    touches no other row. *)
Theorem C18_insert_exact : forall farith order, (forall l, Permutation (order l) l) ->
  forall lay h s d s' r, lay_ok lay -> rhist farith order (mst_new lay) h s ->
  Forall (fun e => stmt_ok (fst e)) h -> data_ok d ->
  rstep farith order s (RInsert d) = (s', r) ->
  (r = RoOk <-> conforming (m_lay s) d /\ rows_of s (ins_key (m_lay s) d) = None) /\
  (r = RoOk -> exists m, rows_of s' (ins_key (m_lay s) d) = Some m /\
     (forall c, In c (akeys m) <-> In c (map fst (lo_fields (m_lay s))) /\ c <> lo_pk (m_lay s)) /\
     (forall c f, aget bseq c (lo_fields (m_lay s)) = Some f -> c <> lo_pk (m_lay s) ->
        exists v x, aget bseq c m = Some v /\ supplied (m_lay s) d c = Some x /\
          accepts_typed f v /\ strip v = strip x)) /\
  (forall k, k <> ins_key (m_lay s) d -> rows_of s' k = rows_of s k) /\
  (r <> RoOk -> (r = RoErr EValid \/ r = RoErr EDup) /\ forall k, rows_of s' k = rows_of s k).
Proof.
  intros farith order OP lay h s d s' r LO H HF HD HS.
  destruct (reach_hist farith order OP lay h s LO H HF) as [I _ IF].
  destruct (insert_cases farith order s d s' r I IF HD HS)
    as [(-> & C & R0 & R1 & RO & _)|[(-> & NC & ->)|(-> & C & R0 & ->)]].
  - split; [tauto|]. split; [|split; [exact RO|congruence]].
    intros _. eexists. split; [exact R1|]. split.
    + apply ins_row_cols; [apply I|exact C].
    + intros c f G NP. eapply ins_row_get; eauto.
  - split; [split; [discriminate|tauto]|]. split; [discriminate|]. split; [reflexivity|]. auto.
  - split; [split; [discriminate|tauto]|]. split; [discriminate|]. split; [reflexivity|]. auto.
Qed.
Print Assumptions C18_insert_exact.

(** the key is not null when the key field is not nullable *)
Theorem C18_key_not_null_partial : forall lay d f, lay_ok lay -> conforming lay d ->
  aget bseq (lo_pk lay) (lo_fields lay) = Some f -> f_null f = false -> ins_key lay d <> PkNull.
Proof. intros. eapply ins_key_not_null; eauto. Qed.
Print Assumptions C18_key_not_null_partial.

Example C18_insert_example :
  let q := InsMap [(f_l, CList [CQw QU64 3; CQw QU64 255]); (f_n, CQw QU64 7); (f_id, CQw QU64 1); (f_s, CStr f_s)] in
  conforming ex_lay q /\ data_ok q /\
  snd (rrun (mst_new ex_lay) [RInsert q; RSelect (at_key 1) None; ins 1 9; ins 2 256]) =
    [(RInsert q, RoOk);
     (RSelect (at_key 1) None, RoRow [CQw QU64 1; CQw QU8 7; CStr f_s; CList [CQw QU8 3; CQw QU8 255]]);
     (ins 1 9, RoErr EDup); (ins 2 256, RoErr EValid)].
Proof.
  cbv zeta. split; [|split].
  - split.
    + split; [cbn; repeat constructor; cbn; intros H; repeat (destruct H as [H|H]; [discriminate|]); contradiction|].
      cbn. tauto.
    + intros k f G. apply (aget_in _ bseq_eq) in G. cbn in G.
      destruct G as [G|[G|[G|[G|[]]]]]; inversion G; subst; eexists; (split; [reflexivity|]).
      * right. cbn [f_layers]. apply (conf_num _ QU64 QU64 1); [reflexivity|cbn; lia].
      * right. cbn [f_layers]. apply (conf_num _ QU8 QU64 7); [reflexivity|cbn; lia].
      * right. constructor.
      * right. constructor. intros x Hx. destruct Hx as [<-|[<-|[]]].
        -- apply (conf_num _ QU8 QU64 3); [reflexivity|cbn; lia].
        -- apply (conf_num _ QU8 QU64 255); [reflexivity|cbn; lia].
  - split; [cbn; repeat constructor; cbn; intros H; repeat (destruct H as [H|H]; [discriminate|]); contradiction|].
    repeat constructor; right; reflexivity.
  - vm_compute. reflexivity.
Qed.

(** The full claim is false: without [primary], the first field is the key, and it may be declared
    nullable. The null key is accepted, its row can never be asked for, and SELECT ALL shows it with
    the key 0, next to a row that really has the key 0. *)
Definition null_lay : layout :=
  mk_layout 7 f_id (qsel_tsel QU64) [(f_id, mk_field true [qsel_tsel QU64]); (f_n, mk_field false [qsel_tsel QU8])].
Lemma null_lay_ok : lay_ok null_lay.
Proof.
  split; [|split].
  - cbn. repeat constructor; cbn; intros H; repeat (destruct H as [H|H]; [discriminate|]); contradiction.
  - repeat constructor; discriminate.
  - eexists. split; [reflexivity|]. split; reflexivity.
Qed.
Example C18_null_key_created : process_create_model 7
  [mk_fs f_id [mk_ls (bstr "uint64"%string) []] true false; mk_fs f_n [mk_ls (bstr "uint8"%string) []] false false] []
  = inr null_lay.
Proof. vm_compute. reflexivity. Qed.
Theorem C18_null_key_refuted : exists h s, rhist noarith idorder (mst_new null_lay) h s /\
  Forall (fun e => stmt_ok (fst e)) h /\
  In (RInsert (InsTuple [CNull; CQw QU64 5]), RoOk) h /\
  rows_of s PkNull = Some [(f_n, CQw QU8 5)] /\
  (forall w, asked (m_lay s) w <> Some PkNull) /\
  snd (rstep noarith idorder s (RSelectAll None 10)) = RoRows [[CQw QU64 0; CQw QU8 5]; [CQw QU64 0; CQw QU8 6]].
Proof.
  pose (qs := [RInsert (InsTuple [CNull; CQw QU64 5]); RInsert (InsTuple [CQw QU64 0; CQw QU64 6])]).
  assert (U : Forall (fun e => snd e <> RoUb) (snd (rrun (mst_new null_lay) qs))) by (vm_compute; no_ub).
  pose proof (rrun_hist qs (mst_new null_lay) U) as R.
  exists (snd (rrun (mst_new null_lay) qs)), (fst (rrun (mst_new null_lay) qs)). split; [exact R|].
  split; [apply stmt_okb_ok; vm_compute; reflexivity|].
  split; [left; vm_compute; reflexivity|]. split; [vm_compute; reflexivity|].
  split; [|vm_compute; reflexivity].
  assert (E : m_lay (fst (rrun (mst_new null_lay) qs)) = null_lay) by (vm_compute; reflexivity).
  rewrite E. intros w. unfold asked. destruct (aget bseq (lo_pk null_lay) w) as [[[] []]|]; discriminate.
Qed.
Print Assumptions C18_null_key_refuted.

(** ** C19: the table *)

(** Every history without schema changes is a history of a table with unique keys: the outcome of each
    next statement is determined by the table of the successful writes so far. *)
Theorem C19_table : forall farith order lay h s, lay_ok lay ->
  rhist farith order (mst_new lay) h s -> Forall (fun e => dml_ok (fst e)) h ->
  let upd := fun m asg => fst (update_row farith (lo_fields lay) m asg) in
  let T := table_of upd lay h in
  (* INSERT *)
  (forall d, data_ok d -> snd (rstep farith order s (RInsert d)) = RoOk <-> conforming lay d /\ T (ins_key lay d) = None) /\
  (* UPDATE *)
  (forall w asg, match asked lay w with
     | None => snd (rstep farith order s (RUpdate w asg)) = RoErr EWhere
     | Some k => match T k with
                 | None => snd (rstep farith order s (RUpdate w asg)) = RoErr ENoRow
                 | Some m => snd (rstep farith order s (RUpdate w asg)) = snd (update_row farith (lo_fields lay) m asg)
                 end
     end) /\
  (* DELETE *)
  (forall w, match asked lay w with
     | None => snd (rstep farith order s (RDelete w)) = RoErr EWhere
     | Some k => snd (rstep farith order s (RDelete w)) = match T k with None => RoErr ENoRow | Some _ => RoOk end
     end) /\
  (* SELECT *)
  (forall w cols, match asked lay w with
     | None => snd (rstep farith order s (RSelect w cols)) = RoErr EWhere
     | Some k => match T k with
                 | None => snd (rstep farith order s (RSelect w cols)) = RoErr ENoRow
                 | Some m =>
                     (Forall (fun c => In c (map fst (lo_fields lay))) (wanted lay cols) ->
                      exists vals, snd (rstep farith order s (RSelect w cols)) = RoRow vals /\
                        shows lay (key_cell k) m (wanted lay cols) vals) /\
                     (~ Forall (fun c => In c (map fst (lo_fields lay))) (wanted lay cols) ->
                      snd (rstep farith order s (RSelect w cols)) = RoErr EField)
                 end
     end) /\
  (* SELECT ALL *)
  (forall cols limit, Forall (fun c => In c (map fst (lo_fields lay))) (wanted lay cols) ->
     (length (wanted lay cols) <= length (lo_fields lay))%nat ->
     exists all rows, NoDup all /\ (forall k, In k all <-> T k <> None) /\
       snd (rstep farith order s (RSelectAll cols limit)) = RoRows rows /\
       Forall2 (fun k r => exists m, T k = Some m /\ shows lay (pk_cell (lo_ptag lay) k) m (wanted lay cols) r)
         (firstn (N.to_nat limit) all) rows).
Proof.
  intros farith order lay h s LO H HF upd T.
  destruct (table_hist farith order lay h s LO H HF) as [I RT]. fold upd in RT. fold T in RT.
  assert (GI : ginv s).
  { destruct I as [IL IS IF IN IR]. constructor; [congruence|exact IN|]. intros k i G.
    destruct (IR _ _ G) as (o & E & K & _). eauto. }
  pose proof I as [IL IS IF IN IR].
  split; [|split; [|split; [|split]]].
  - intros d HD. destruct (rstep farith order s (RInsert d)) as [s' r] eqn:E. cbn [snd].
    destruct (insert_cases farith order s d s' r GI IF HD E) as [(-> & C & R0 & _)|[(-> & NC & ->)|(-> & C & R0 & ->)]];
      rewrite IL, <- ?RT in *; (split; [|try tauto]); try discriminate; rewrite ?RT in *; try tauto.
  - intros w asg. pose proof (update_cases farith order s w asg GI IF) as U. rewrite IL in U.
    destruct (asked lay w) as [k|]; [|rewrite U; reflexivity].
    rewrite <- RT. unfold rows_of at 1. destruct (aget pkey_eqb k (m_idx s)) as [i|] eqn:G; [|rewrite U; reflexivity].
    destruct U as (o & EO & K & R & U). rewrite EO.
    destruct (update_row farith (lo_fields lay) (ro_fields o) asg) as [m []]; rewrite U; reflexivity.
  - intros w. cbn [rstep]. unfold exec_delete. rewrite IF, IL.
    assert (UP : tuniq_is_unique (tsel_uniq (lo_ptag lay)) = true) by (destruct LO as (_ & _ & f & _ & _ & U); exact U).
    pose proof (resolve_where_asked lay w UP) as RW.
    destruct (resolve_where lay w) as [x|]; rewrite RW; [|reflexivity].
    rewrite <- RT. unfold rows_of. cbn [bump_dver set_dver m_idx].
    destruct (aget pkey_eqb (lit_key x) (m_idx s)) as [i|] eqn:G; [|reflexivity].
    destruct (IR _ _ G) as (o & E & _). rewrite E. reflexivity.
  - intros w cols. pose proof (select_outcome farith order lay s w cols LO I) as S.
    destruct (asked lay w) as [k|]; [|exact S]. rewrite <- RT. exact S.
  - intros cols limit F L. destruct (select_all_outcome farith order lay s cols limit LO I) as [S _].
    destruct (S F L) as (all & rows & A1 & A2 & A3 & A4). exists all, rows. split; [exact A1|].
    split; [intros k; rewrite A2, RT; tauto|]. split; [exact A3|].
    clear -A4 RT. induction A4 as [|k r0 l rs (m & E & SH) F IH]; constructor; [|exact IH].
    exists m. rewrite <- RT. auto.
Qed.
Print Assumptions C19_table.

(** one statement changes at most the row it names *)
Theorem C19_other_rows : forall farith order, (forall l, Permutation (order l) l) ->
  forall lay h s q s' r k, lay_ok lay -> rhist farith order (mst_new lay) h s ->
  Forall (fun e => dml_ok (fst e)) h -> dml_ok q -> rstep farith order s q = (s', r) -> r <> RoUb ->
  match q with
  | RInsert d => k <> ins_key lay d
  | RUpdate w _ | RDelete w => asked lay w <> Some k
  | _ => True
  end -> rows_of s' k = rows_of s k.
Proof.
  intros farith order OP lay h s q s' r k LO H HF HQ HS HU NK.
  destruct (table_hist farith order lay h s LO H HF) as [I _].
  destruct (table_step farith order lay s q s' r LO I HQ HS HU) as [_ T]. rewrite T. unfold tlog.
  destruct q as [d|w asg|w|w cols|cols n|a b]; destruct r; try reflexivity; unfold tput.
  all: try (destruct (asked lay w) as [p|] eqn:EA; [|reflexivity]).
  all: try (destruct (rows_of s p) eqn:ER; [|reflexivity]).
  all: try match goal with |- (if pkey_eqb ?a ?b then _ else _) = _ => destruct (pkey_eqb a b) eqn:E end; try reflexivity.
  all: apply pkey_eqb_eq in E; subst; congruence.
Qed.
Print Assumptions C19_other_rows.

Example C19_history_example :
  let qs := [ins 1 10; ins 2 20; ins 1 30; RUpdate (at_key 2) [mk_as f_n AAdd (LUInt 5)];
             RDelete (at_key 1); RDelete (at_key 1); RSelect (at_key 1) None; ins 1 40;
             RSelectAll (Some [f_n; f_id]) 10] in
  Forall (fun e => dml_ok (fst e)) (snd (rrun (mst_new ex_lay) qs)) /\
  map snd (snd (rrun (mst_new ex_lay) qs)) =
    [RoOk; RoOk; RoErr EDup; RoOk; RoOk; RoErr ENoRow; RoErr ENoRow; RoOk;
     RoRows [[CQw QU8 25; CQw QU64 2]; [CQw QU8 40; CQw QU64 1]]].
Proof.
  cbv zeta. split; [|vm_compute; reflexivity].
  apply dml_okb_ok. vm_compute. reflexivity.
Qed.

(** ** C20: all or nothing *)

(** An UPDATE that names each column once and appends to no list column, and returns an error, leaves
    the whole model exactly as it was, but for the change counter. Missing for the full claim: repeated
    columns, list appends (refuted below), and panics, after which the row keeps what was assigned so
    far. *)
Theorem C20_error_restores_partial : forall farith order, (forall l, Permutation (order l) l) ->
  forall lay h s w asg s' e, lay_ok lay -> rhist farith order (mst_new lay) h s ->
  Forall (fun e => stmt_ok (fst e)) h ->
  rstep farith order s (RUpdate w asg) = (s', RoErr e) ->
  NoDup (map as_lhs asg) -> Forall (fun a => ~ is_append (lo_fields (m_lay s)) a) asg ->
  s' = s \/ s' = bump_dver s.
Proof.
  intros farith order OP lay h s w asg s' e LO H HF HS ND NA.
  destruct (reach_hist farith order OP lay h s LO H HF) as [I RN IF].
  pose proof (update_cases farith order s w asg I IF) as U.
  destruct (asked (m_lay s) w) as [k|]; [|left; congruence].
  destruct (aget pkey_eqb k (m_idx s)) as [i|]; [|left; congruence].
  destruct U as (o & EO & K & _ & U).
  destruct (update_row farith (lo_fields (m_lay s)) (ro_fields o) asg) as [m r] eqn:EU.
  destruct r; try congruence. rewrite U in HS. injection HS as HS1 HS2. subst e0.
  apply update_error_same in EU; auto; [|eapply RN; eauto]. subst m.
  right. rewrite <- HS1. unfold with_fields. rewrite upd_nth_id; [destruct s; reflexivity|].
  rewrite EO. destruct o; reflexivity.
Qed.
Print Assumptions C20_error_restores_partial.

Example C20_error_example :
  map snd (snd (rrun (mst_new ex_lay)
    [ins 1 10; RUpdate (at_key 1) [mk_as f_n AAssign (LUInt 99); mk_as f_s AAssign (LStr f_s); mk_as f_l AAssign (LUInt 1)];
     RSelect (at_key 1) (Some [f_n; f_s])])) = [RoOk; RoErr EValid; RoRow [CQw QU8 10; CNull]].
Proof. vm_compute. reflexivity. Qed.

(** A column assigned twice is "restored" to its intermediate value. *)
Theorem C20_repeated_column_refuted : exists s w asg m m', 
  rhist noarith idorder (mst_new ex_lay) [(ins 1 10, RoOk)] s /\
  snd (rstep noarith idorder s (RUpdate w asg)) = RoErr EValid /\
  rows_of s (PkUInt 1) = Some m /\ aget bseq f_n m = Some (CQw QU8 10) /\
  rows_of (fst (rstep noarith idorder s (RUpdate w asg))) (PkUInt 1) = Some m' /\ aget bseq f_n m' = Some (CQw QU8 20).
Proof.
  pose proof (rrun_hist [ins 1 10] (mst_new ex_lay)) as R.
  assert (U : Forall (fun e => snd e <> RoUb) (snd (rrun (mst_new ex_lay) [ins 1 10]))) by (vm_compute; no_ub).
  specialize (R U). exists (fst (rrun (mst_new ex_lay) [ins 1 10])), (at_key 1).
  exists [mk_as f_n AAssign (LUInt 20); mk_as f_n AAssign (LUInt 30); mk_as f_l AAssign (LUInt 1)].
  exists [(f_n, CQw QU8 10); (f_s, CNull); (f_l, CList [CQw QU8 1])].
  exists [(f_n, CQw QU8 20); (f_s, CNull); (f_l, CList [CQw QU8 1])].
  split; [exact R|]. vm_compute. repeat split.
Qed.
Print Assumptions C20_repeated_column_refuted.

(** An element appended to a list before the error stays there. *)
Theorem C20_list_append_refuted : exists s w asg m',
  rhist noarith idorder (mst_new ex_lay) [(ins 1 10, RoOk)] s /\ NoDup (map as_lhs asg) /\
  snd (rstep noarith idorder s (RUpdate w asg)) = RoErr EField /\
  rows_of (fst (rstep noarith idorder s (RUpdate w asg))) (PkUInt 1) = Some m' /\
  aget bseq f_l m' = Some (CList [CQw QU8 1; CQw QU64 2]).
Proof.
  pose proof (rrun_hist [ins 1 10] (mst_new ex_lay)) as R.
  assert (U : Forall (fun e => snd e <> RoUb) (snd (rrun (mst_new ex_lay) [ins 1 10]))) by (vm_compute; no_ub).
  specialize (R U). exists (fst (rrun (mst_new ex_lay) [ins 1 10])), (at_key 1).
  exists [mk_as f_l AAdd (LUInt 2); mk_as (bstr "nope"%string) AAssign (LUInt 30)].
  exists [(f_n, CQw QU8 10); (f_s, CNull); (f_l, CList [CQw QU8 1; CQw QU64 2])].
  split; [exact R|]. split; [cbn; repeat constructor; cbn; intros X; repeat (destruct X as [X|X]; [discriminate|]); contradiction|].
  vm_compute. repeat split.
Qed.
Print Assumptions C20_list_append_refuted.

(** A division by zero kills the task and leaves the assignments before it in the row. *)
Theorem C20_division_panic_refuted : exists s w asg m',
  rhist noarith idorder (mst_new ex_lay) [(ins 1 10, RoOk)] s /\ NoDup (map as_lhs asg) /\
  snd (rstep noarith idorder s (RUpdate w asg)) = RoPanic /\
  rows_of (fst (rstep noarith idorder s (RUpdate w asg))) (PkUInt 1) = Some m' /\
  aget bseq f_s m' = Some (CStr f_s).
Proof.
  pose proof (rrun_hist [ins 1 10] (mst_new ex_lay)) as R.
  assert (U : Forall (fun e => snd e <> RoUb) (snd (rrun (mst_new ex_lay) [ins 1 10]))) by (vm_compute; no_ub).
  specialize (R U). exists (fst (rrun (mst_new ex_lay) [ins 1 10])), (at_key 1).
  exists [mk_as f_s AAssign (LStr f_s); mk_as f_n ADiv (LUInt 0)].
  exists [(f_n, CQw QU8 10); (f_s, CStr f_s); (f_l, CList [CQw QU8 1])].
  split; [exact R|]. split; [cbn; repeat constructor; cbn; intros X; repeat (destruct X as [X|X]; [discriminate|]); contradiction|].
  vm_compute. repeat split.
Qed.
Print Assumptions C20_division_panic_refuted.

(** ** C21: exact arithmetic *)

(** When the exact results of all assignments exist and fit the declared types, UPDATE succeeds, the
    row holds exactly those results (up to the recorded width), has its declared types, and no other
    row changes. Missing for the full claim: when a result does not fit, the statement should be
    refused; it never is (next theorem, and refutations). *)
Theorem C21_update_exact_partial : forall farith order, (forall l, Permutation (order l) l) ->
  forall lay h s w asg k m row', lay_ok lay -> rhist farith order (mst_new lay) h s ->
  Forall (fun e => stmt_ok (fst e)) h ->
  asked (m_lay s) w = Some k -> rows_of s k = Some m -> row_ok (lo_fields (m_lay s)) m ->
  Forall (fun a => lit_ok (as_rhs a)) asg ->
  exact_update farith (lo_fields (m_lay s)) asg (fun c => aget bseq c m) = Some row' ->
  exists s' m', rstep farith order s (RUpdate w asg) = (s', RoOk) /\ rows_of s' k = Some m' /\
    row_ok (lo_fields (m_lay s)) m' /\ (forall c, ostrip (aget bseq c m') = ostrip (row' c)) /\
    (forall k', k' <> k -> rows_of s' k' = rows_of s k').
Proof.
  intros farith order OP lay h s w asg k m row' LO H HF HA HR RO HL HE.
  destruct (reach_hist farith order OP lay h s LO H HF) as [I RN IF].
  pose proof (update_cases farith order s w asg I IF) as U. rewrite HA in U.
  assert (GX : aget pkey_eqb k (m_idx s) <> None) by (intros X; apply (rows_of_none s k I) in X; congruence).
  destruct (aget pkey_eqb k (m_idx s)) as [i|] eqn:G; [|congruence]. clear GX.
  destruct U as (o & EO & K & R & U). assert (m = ro_fields o) by congruence. subst m.
  destruct (update_exact farith (lo_fields (m_lay s)) asg (ro_fields o) [] _ _ RO HL (fun _ => eq_refl) HE) as (m' & EU & RO' & EQ).
  assert (UR : update_row farith (lo_fields (m_lay s)) (ro_fields o) asg = (m', RoOk)) by (unfold update_row; rewrite EU; reflexivity).
  rewrite UR in U. eexists _, m'. split; [exact U|].
  unfold rows_of. cbn [enqueue set_queue set_objs bump_dver set_dver m_idx m_objs].
  rewrite G, (nth_upd_same _ _ _ _ EO). split; [reflexivity|]. split; [exact RO'|]. split; [exact EQ|].
  intros k' NK. destruct (aget pkey_eqb k' (m_idx s)) as [j|] eqn:GJ; [|reflexivity].
  rewrite nth_upd_other; [reflexivity|]. intros ->. destruct I as [_ _ IR].
  destruct (IR _ _ GJ) as (o2 & E2 & K2). congruence.
Qed.
Print Assumptions C21_update_exact_partial.

(** Whatever is assigned, every column of every row keeps the type class of its declaration (or is null),
    and so do the elements of lists; ranges and nullability are what may be violated. *)
Lemma typed_shaped ls c : typed ls c -> shaped ls c.
Proof.
  intros T. induction T; try (constructor; fail).
  - subst. apply sh_num. reflexivity.
  - constructor. auto.
Qed.
Theorem C21_classes_kept_partial : forall farith order lay h s, lay_ok lay ->
  rhist farith order (mst_new lay) h s -> Forall (fun e => dml_ok (fst e)) h ->
  forall k m c f v, rows_of s k = Some m -> aget bseq c (lo_fields lay) = Some f -> aget bseq c m = Some v ->
  v = CNull \/ shaped (f_layers f) v.
Proof.
  intros farith order lay h s LO H HF.
  enough (G : forall k m, rows_of s k = Some m -> row_shaped (lo_fields lay) m) by (intros k m c f v HR GC GM; eapply G; eauto).
  remember (mst_new lay) as s0 eqn:E0. induction H as [s0|s0 h s1 q s2 r H IH HS HU]; subst.
  - intros k m HR. discriminate HR.
  - apply Forall_app in HF as [HF HQ]. inversion HQ as [|? ? HQ1 _]; subst. cbn [fst] in HQ1. specialize (IH eq_refl HF).
    destruct (table_hist farith order lay h s1 LO H HF) as [I _].
    destruct (table_step farith order lay s1 q s2 r LO I HQ1 HS HU) as [_ T].
    assert (LK : forall c f, aget bseq c (lo_fields lay) = Some f -> layers_ok (f_layers f)).
    { destruct LO as (_ & L2 & _). rewrite Forall_forall in L2. intros c f GC. apply (aget_in _ bseq_eq) in GC. apply (L2 _ GC). }
    intros k m HR. rewrite T in HR. unfold tlog in HR.
    destruct q as [d|w asg|w|w cols|cols n|a b]; destruct r; try (eapply IH; eassumption); unfold tput in HR.
    all: try (destruct (asked lay w) as [p|] eqn:EA; [|eapply IH; eassumption]).
    all: try (destruct (rows_of s1 p) as [m0|] eqn:ER; [|eapply IH; eassumption]).
    all: match type of HR with (if pkey_eqb ?a ?b then _ else _) = _ => destruct (pkey_eqb a b) eqn:E end; try (eapply IH; eassumption).
    all: try discriminate HR.
    all: injection HR as <-.
    all: try (apply update_shaped; [exact LK|eapply IH; eassumption]).
    assert (GI : ginv s1).
    { destruct I as [IL IS IF IN IR]. constructor; [congruence|exact IN|]. intros k0 i0 G0.
      destruct (IR _ _ G0) as (o & E1 & K & _). eauto. }
    destruct I as [IL IS IF IN IR].
    destruct (insert_cases farith order s1 d s2 RoOk GI IF HQ1 HS) as [(_ & C & _)|[(X & _)|(X & _)]]; try discriminate.
    rewrite IL in C. intros c f v GC GM.
    assert (NP : c <> lo_pk lay).
    { apply (aget_some_key _ bseq_eq) in GM. apply ins_row_cols in GM; [tauto|exact LO|exact C]. }
    destruct (ins_row_get _ _ C c f GC NP) as (v' & x & E1 & _ & [[A _]|A] & _); rewrite E1 in GM; inversion GM; subst; auto.
    right. apply typed_shaped. exact A.
Qed.
Print Assumptions C21_classes_kept_partial.

Example C21_exact_example :
  let m := [(f_n, CQw QU8 10); (f_s, CNull); (f_l, CList [CQw QU8 1])] in
  let asg := [mk_as f_n AAdd (LUInt 200); mk_as f_n ASub (LUInt 100); mk_as f_n ADiv (LUInt 3); mk_as f_s AAssign (LStr f_s); mk_as f_s AAdd (LStr f_n);
              mk_as f_l AAdd (LUInt 255)] in
  match exact_update noarith (lo_fields ex_lay) asg (fun c => aget bseq c m) with
  | Some row => row f_n = Some (CQw QU8 36)
  | None => False
  end /\
  rows_of (fst (rrun (mst_new ex_lay) [ins 1 10; RUpdate (at_key 1) asg])) (PkUInt 1) =
    Some [(f_n, CQw QU8 36); (f_s, CStr (f_s ++ f_n)); (f_l, CList [CQw QU8 1; CQw QU64 255])].
Proof. cbv zeta. split; vm_compute; reflexivity. Qed.

(** No value is ever refused: assignments whose operator exists for the type (and are no integer
    division by zero) always succeed, whatever the result. *)
Theorem C21_no_result_is_refused : forall farith order, (forall l, Permutation (order l) l) ->
  forall lay h s w asg k m, lay_ok lay -> rhist farith order (mst_new lay) h s ->
  Forall (fun e => stmt_ok (fst e)) h ->
  asked (m_lay s) w = Some k -> rows_of s k = Some m -> Forall (plain (lo_fields (m_lay s)) m) asg ->
  snd (rstep farith order s (RUpdate w asg)) = RoOk.
Proof.
  intros farith order OP lay h s w asg k m LO H HF HA HR HP.
  destruct (reach_hist farith order OP lay h s LO H HF) as [I RN IF].
  pose proof (update_cases farith order s w asg I IF) as U. rewrite HA in U.
  assert (GX : aget pkey_eqb k (m_idx s) <> None) by (intros X; apply (rows_of_none s k I) in X; congruence).
  destruct (aget pkey_eqb k (m_idx s)) as [i|] eqn:G; [|congruence].
  destruct U as (o & EO & K & R & U). assert (m = ro_fields o) by congruence. subst m.
  destruct (update_never_refuses farith (lo_fields (m_lay s)) asg (ro_fields o) [] HP) as (m' & EU).
  assert (UR : update_row farith (lo_fields (m_lay s)) (ro_fields o) asg = (m', RoOk)) by (unfold update_row; rewrite EU; reflexivity).
  rewrite UR in U. rewrite U. reflexivity.
Qed.
Print Assumptions C21_no_result_is_refused.

(** an assignment out of range, an overflow, an unsupported operator, an element out of range *)
Theorem C21_wrong_values_refuted : exists s,
  rhist noarith idorder (mst_new ex_lay) [(ins 1 10, RoOk)] s /\
  (* uint8 := 1000 *)
  rows_of (fst (rstep noarith idorder s (RUpdate (at_key 1) [mk_as f_n AAssign (LUInt 1000)]))) (PkUInt 1) =
    Some [(f_n, CQw QU8 1000); (f_s, CNull); (f_l, CList [CQw QU8 1])] /\
  snd (rstep noarith idorder s (RUpdate (at_key 1) [mk_as f_n AAssign (LUInt 1000)])) = RoOk /\
  (* 10 - 11 wraps *)
  rows_of (fst (rstep noarith idorder s (RUpdate (at_key 1) [mk_as f_n ASub (LUInt 11)]))) (PkUInt 1) =
    Some [(f_n, CQw QU8 18446744073709551615); (f_s, CNull); (f_l, CList [CQw QU8 1])] /\
  snd (rstep noarith idorder s (RUpdate (at_key 1) [mk_as f_n ASub (LUInt 11)])) = RoOk /\
  (* an element 1000 of a list of uint8 *)
  rows_of (fst (rstep noarith idorder s (RUpdate (at_key 1) [mk_as f_l AAdd (LUInt 1000)]))) (PkUInt 1) =
    Some [(f_n, CQw QU8 10); (f_s, CNull); (f_l, CList [CQw QU8 1; CQw QU64 1000])].
Proof.
  pose proof (rrun_hist [ins 1 10] (mst_new ex_lay)) as R.
  assert (U : Forall (fun e => snd e <> RoUb) (snd (rrun (mst_new ex_lay) [ins 1 10]))) by (vm_compute; no_ub).
  specialize (R U). exists (fst (rrun (mst_new ex_lay) [ins 1 10])). split; [exact R|]. vm_compute. repeat split.
Qed.
Print Assumptions C21_wrong_values_refuted.

(** subtracting from a string stores null in a column that is not nullable *)
Definition str_lay : layout :=
  mk_layout 7 f_id (qsel_tsel QU64) [(f_id, mk_field false [qsel_tsel QU64]); (f_s, mk_field false [TsStr])].
Theorem C21_null_stored_refuted : exists s,
  rhist noarith idorder (mst_new str_lay) [(RInsert (InsTuple [CQw QU64 1; CStr f_s]), RoOk)] s /\
  snd (rstep noarith idorder s (RUpdate (at_key 1) [mk_as f_s ASub (LStr f_s)])) = RoOk /\
  rows_of (fst (rstep noarith idorder s (RUpdate (at_key 1) [mk_as f_s ASub (LStr f_s)]))) (PkUInt 1) = Some [(f_s, CNull)] /\
  aget bseq f_s (lo_fields str_lay) = Some (mk_field false [TsStr]).
Proof.
  pose (qs := [RInsert (InsTuple [CQw QU64 1; CStr f_s])]).
  assert (U : Forall (fun e => snd e <> RoUb) (snd (rrun (mst_new str_lay) qs))) by (vm_compute; no_ub).
  pose proof (rrun_hist qs (mst_new str_lay) U) as R.
  exists (fst (rrun (mst_new str_lay) qs)). split; [exact R|]. vm_compute. repeat split.
Qed.
Print Assumptions C21_null_stored_refuted.

(** ** C22: rows across ALTER MODEL ADD and REMOVE *)

(** For every history, schema changes included: a column that no ALTER ADD or REMOVE has ever named
    keeps reading as it was inserted, as long as the row is not updated or deleted. Missing for the
    full claim: the columns added or removed (see below). *)
Theorem C22_unaltered_columns_partial : forall farith order, (forall l, Permutation (order l) l) ->
  forall lay h1 s1 d s2 h2 s w c f,
  lay_ok lay -> rhist farith order (mst_new lay) h1 s1 -> Forall (fun e => stmt_ok (fst e)) h1 -> data_ok d ->
  rstep farith order s1 (RInsert d) = (s2, RoOk) ->
  rhist farith order s2 h2 s -> Forall (fun e => stmt_ok (fst e)) h2 ->
  Forall (fun e => ~ writes (m_lay s2) (ins_key (m_lay s1) d) (fst e)) h2 ->
  asked (m_lay s) w = Some (ins_key (m_lay s1) d) -> untouched c (m_sd s) ->
  aget bseq c (lo_fields (m_lay s1)) = Some f -> c <> lo_pk (m_lay s1) ->
  exists v x, snd (rstep farith order s (RSelect w (Some [c]))) = RoRow [v] /\
    supplied (m_lay s1) d c = Some x /\ strip v = strip x.
Proof.
  intros farith order OP lay h1 s1 d s2 h2 s w c f LO H1 F1 HD HI H2 F2 NW HA UT GF NP.
  destruct (reach_hist farith order OP lay h1 s1 LO H1 F1) as [I1 _ IF1].
  destruct (insert_cases farith order s1 d s2 RoOk I1 IF1 HD HI)
    as [(_ & C & _ & _ & _ & i & G & N)|[(X & _)|(X & _)]]; try discriminate.
  assert (NU : RoOk <> RoUb) by discriminate.
  destruct (grow_step farith order OP s1 (RInsert d) s2 RoOk I1 HD HI NU) as (I2 & _).
  destruct (grow_hist farith order OP s2 h2 s H2 I2 F2) as (I & P & _ & _ & _ & RW).
  destruct (RW _ _ _ G N NW) as (o' & G' & N' & CK & _).
  rewrite (select_state farith order s w (Some [c]) _ _ _ I HA G' N'). cbn [wanted read_cols].
  rewrite resolve_get, CK by exact UT. cbn [ro_fields].
  destruct (ins_row_get _ _ C c f GF NP) as (v & x & E1 & E2 & _ & E3).
  rewrite E1. eauto.
Qed.
Print Assumptions C22_unaltered_columns_partial.

(** A row written after the last schema change reads exactly as written, all columns, whatever schema
    changes came before it. *)
Theorem C22_current_rows_partial : forall farith order, (forall l, Permutation (order l) l) ->
  forall lay h1 s1 d s2 h2 s w,
  lay_ok lay -> rhist farith order (mst_new lay) h1 s1 -> Forall (fun e => stmt_ok (fst e)) h1 -> data_ok d ->
  rstep farith order s1 (RInsert d) = (s2, RoOk) ->
  rhist farith order s2 h2 s -> Forall (fun e => stmt_ok (fst e)) h2 ->
  Forall (fun e => match fst e with RAlter _ _ => False | _ => True end) h2 ->
  Forall (fun e => ~ writes (m_lay s2) (ins_key (m_lay s1) d) (fst e)) h2 ->
  asked (m_lay s) w = Some (ins_key (m_lay s1) d) ->
  exists vals, snd (rstep farith order s (RSelect w None)) = RoRow vals /\
    shows (m_lay s1) (key_cell (ins_key (m_lay s1) d)) (ins_row (m_lay s1) d) (map fst (lo_fields (m_lay s1))) vals.
Proof.
  intros farith order OP lay h1 s1 d s2 h2 s w LO H1 F1 HD HI H2 F2 NA NW HA.
  destruct (reach_hist farith order OP lay h1 s1 LO H1 F1) as [I1 _ IF1].
  destruct (insert_cases farith order s1 d s2 RoOk I1 IF1 HD HI)
    as [(_ & C & _ & _ & _ & i & G & N)|[(X & _)|(X & _)]]; try discriminate.
  assert (NU : RoOk <> RoUb) by discriminate.
  destruct (grow_step farith order OP s1 (RInsert d) s2 RoOk I1 HD HI NU) as (I2 & _ & _ & _ & [EL ED] & _).
  destruct (grow_hist farith order OP s2 h2 s H2 I2 F2) as (I & P & _ & _ & SAME & RW).
  destruct (SAME NA) as [EL2 ED2].
  destruct (RW _ _ _ G N NW) as (o' & G' & N' & _ & KEEP).
  assert (o' = mk_row (ins_key (m_lay s1) d) (ins_row (m_lay s1) d) (m_dver s1) (length (m_sd s1))).
  { apply KEEP; [exact NA|]. cbn [ro_sv]. rewrite ED. lia. }
  subst o'.
  rewrite (select_state farith order s w None _ _ _ I HA G' N').
  rewrite resolve_same by (cbn [ro_sv]; rewrite ED2, ED; lia). cbn [ro_fields wanted].
  rewrite EL2, EL.
  destruct (read_cols_ok (m_lay s1) (key_cell (ins_key (m_lay s1) d)) (ins_row (m_lay s1) d) (map fst (lo_fields (m_lay s1))))
    as (vals & E & SH).
  { apply ins_row_cols; [apply I1|exact C]. }
  { apply Forall_forall. auto. }
  rewrite E. eauto.
Qed.
Print Assumptions C22_current_rows_partial.

(** The full claim fails for every row: the first column added after a row is written is missing from
    it. Selecting all its columns is an error, and SELECT ALL, when it reaches it, kills the task. *)
Theorem C22_first_added_column_missing : forall farith order, (forall l, Permutation (order l) l) ->
  forall s x s' w k i o, ginv s -> asked (m_lay s) w = Some k ->
  aget pkey_eqb k (m_idx s) = Some i -> nth_error (m_objs s) i = Some o ->
  ro_sv o = length (m_sd s) -> cols_ok (m_lay s) (ro_fields o) ->
  rstep farith order s (RAlter (AkAdd [x]) true) = (s', RoOk) ->
  snd (rstep farith order s' (RSelect w None)) = RoErr EField /\
  (forall n, (length (m_idx s) <= N.to_nat n)%nat -> snd (rstep farith order s' (RSelectAll None n)) = RoPanic).
Proof.
  intros farith order OP s x s' w k i o I HA G N SV CO HS.
  assert (NU : RoOk <> RoUb) by discriminate.
  destruct (grow_step farith order OP s (RAlter (AkAdd [x]) true) s' RoOk I Logic.I HS NU) as (I' & P & T & _ & _ & RW).
  cbn [rstep] in HS. pose proof I as [IL IN IR].
  destruct (alter_cases order OP _ _ _ _ _ IL HS) as [[_ [X _]]|(_ & AL & ES & LO' & P1 & P2 & _)]; [congruence|].
  cbn [altered map] in AL. destruct AL as (fs & NM & NI & EF & ED).
  destruct fs as [|[c f] [|? ?]]; try discriminate NM. cbn [map fst] in NM. injection NM as NM.
  assert (G' : aget pkey_eqb k (m_idx s') = Some i) by (rewrite ES; exact G).
  assert (N' : nth_error (m_objs s') i = Some o) by (rewrite ES; exact N).
  assert (HA' : asked (m_lay s') w = Some k) by (rewrite <- HA; apply asked_same; auto).
  assert (NC : ~ In c (map fst (lo_fields (m_lay s)))) by (apply NI; left; reflexivity).
  assert (NP : c <> lo_pk (m_lay s')).
  { rewrite P1. intros ->. apply NC. destruct IL as (_ & _ & f0 & G0 & _). apply (aget_some_key _ bseq_eq) in G0. exact G0. }
  assert (MISS : aget bseq c (ro_fields (resolve (m_sd s') o)) = None).
  { rewrite ED, <- NM. rewrite resolve_first by exact SV. apply (aget_none _ bseq_eq). intros X. apply CO in X. tauto. }
  assert (INC : In c (map fst (lo_fields (m_lay s')))) by (rewrite EF, map_app; apply in_app_iff; right; left; reflexivity).
  split.
  - rewrite (select_state farith order s' w None k i o I' HA' G' N'). cbn [wanted].
    rewrite (read_cols_missing _ _ _ _ c INC NP MISS). reflexivity.
  - intros n LN. cbn [rstep]. unfold exec_select_all.
    destruct (scan_panics (m_lay s') (m_sd s') (map fst (lo_fields (m_lay s')))
      (firstn (N.to_nat (N.min n (N.of_nat (length (m_idx s'))))) (map snd (m_idx s'))) (m_objs s') i o) as (objs & E).
    + assert (EI : m_idx s' = m_idx s) by (rewrite ES; reflexivity). rewrite EI, N2Nat.inj_min, Nat2N.id, Nat.min_r by exact LN.
      rewrite <- (map_length snd (m_idx s)), firstn_all. apply (aget_in _ pkey_eqb_eq) in G.
      apply in_map_iff. exists (k, i). auto.
    + exact N'.
    + apply (read_cols_all_missing _ _ _ _ c); auto.
    + rewrite E. reflexivity.
Qed.
Print Assumptions C22_first_added_column_missing.

Example C22_added_example :
  let add := RAlter (AkAdd [mk_ef (bstr "x"%string) [mk_ls (bstr "uint8"%string) []] [(bstr "nullable"%string, DData (CBool true))]]) true in
  map snd (snd (rrun (mst_new ex_lay) [ins 1 10; add; RSelect (at_key 1) (Some [f_n]); RSelect (at_key 1) None; RSelectAll None 10])) =
    [RoOk; RoOk; RoRow [CQw QU8 10]; RoErr EField; RoPanic].
Proof. vm_compute. reflexivity. Qed.

(** likewise a column removed right after the row was written stays readable in it *)
Theorem C22_first_removed_column_stays : forall farith order, (forall l, Permutation (order l) l) ->
  forall s c s' w k i o v, ginv s -> asked (m_lay s) w = Some k ->
  aget pkey_eqb k (m_idx s) = Some i -> nth_error (m_objs s) i = Some o ->
  ro_sv o = length (m_sd s) -> aget bseq c (ro_fields o) = Some v ->
  rstep farith order s (RAlter (AkRemove [c]) true) = (s', RoOk) ->
  ~ In c (map fst (lo_fields (m_lay s'))) /\
  snd (rstep farith order s' (RSelect w (Some [c]))) = RoRow [v].
Proof.
  intros farith order OP s c s' w k i o v I HA G N SV GV HS.
  assert (NU : RoOk <> RoUb) by discriminate.
  destruct (grow_step farith order OP s (RAlter (AkRemove [c]) true) s' RoOk I Logic.I HS NU) as (I' & P & T & _ & _ & RW).
  cbn [rstep] in HS. pose proof I as [IL IN IR].
  destruct (alter_cases order OP _ _ _ _ _ IL HS) as [[_ [X _]]|(_ & AL & ES & LO' & P1 & P2 & _)]; [congruence|].
  cbn [altered map fold_left] in AL. destruct AL as (_ & EF & ED).
  assert (G' : aget pkey_eqb k (m_idx s') = Some i) by (rewrite ES; exact G).
  assert (N' : nth_error (m_objs s') i = Some o) by (rewrite ES; exact N).
  assert (HA' : asked (m_lay s') w = Some k) by (rewrite <- HA; apply asked_same; auto).
  split.
  - rewrite EF. intros X. apply (akeys_del_in _ bseq_eq) in X. tauto.
  - rewrite (select_state farith order s' w (Some [c]) k i o I' HA' G' N'). cbn [wanted read_cols].
    rewrite ED, resolve_first, GV by exact SV. reflexivity.
Qed.
Print Assumptions C22_first_removed_column_stays.

(** and reappears, with its old value, in a column of the same name and another type added later *)
Theorem C22_removed_column_refuted : exists s,
  let add := RAlter (AkAdd [mk_ef f_s [mk_ls (bstr "uint8"%string) []] [(bstr "nullable"%string, DData (CBool true))]]) true in
  let h := [(ins 1 10, RoOk); (RUpdate (at_key 1) [mk_as f_s AAssign (LStr f_s)], RoOk);
            (RAlter (AkRemove [f_s]) true, RoOk); (add, RoOk)] in
  rhist noarith idorder (mst_new ex_lay) h s /\ Forall (fun e => stmt_ok (fst e)) h /\
  aget bseq f_s (lo_fields (m_lay s)) = Some (mk_field true [qsel_tsel QU8]) /\
  snd (rstep noarith idorder s (RSelect (at_key 1) None)) =
    RoRow [CQw QU64 1; CQw QU8 10; CList [CQw QU8 1]; CStr f_s].
Proof.
  pose (add := RAlter (AkAdd [mk_ef f_s [mk_ls (bstr "uint8"%string) []] [(bstr "nullable"%string, DData (CBool true))]]) true).
  pose (qs := [ins 1 10; RUpdate (at_key 1) [mk_as f_s AAssign (LStr f_s)]; RAlter (AkRemove [f_s]) true; add]).
  assert (U : Forall (fun e => snd e <> RoUb) (snd (rrun (mst_new ex_lay) qs))) by (vm_compute; no_ub).
  pose proof (rrun_hist qs (mst_new ex_lay) U) as R.
  exists (fst (rrun (mst_new ex_lay) qs)). cbv zeta. split; [exact R|].
  split; [apply stmt_okb_ok; vm_compute; reflexivity|]. vm_compute. split; reflexivity.
Qed.
Print Assumptions C22_removed_column_refuted.

Example C22_positive_example :
  let add := RAlter (AkAdd [mk_ef (bstr "x"%string) [mk_ls (bstr "uint8"%string) []] [(bstr "nullable"%string, DData (CBool true))]]) true in
  map snd (snd (rrun (mst_new ex_lay) [ins 1 10; add; RInsert (InsTuple [CQw QU64 2; CQw QU64 20; CNull; CList []; CQw QU64 9]);
      RSelect (at_key 2) None; RSelect (at_key 1) (Some [f_n; f_l])])) =
    [RoOk; RoOk; RoOk; RoRow [CQw QU64 2; CQw QU8 20; CNull; CList []; CQw QU8 9]; RoRow [CQw QU8 10; CList [CQw QU8 1]]].
Proof. vm_compute. reflexivity. Qed.

(** ** C23: ALTER MODEL against stored data *)

(** An accepted ALTER MODEL changes no row and leaves the key column alone. A column that stays accepts
    every value it accepted before: narrower types, another class, or a nullable column made non-null
    are refused. *)
Theorem C23_alter_only_widens : forall order, (forall l, Permutation (order l) l) ->
  forall farith s k ok s', ginv s -> rstep farith order s (RAlter k ok) = (s', RoOk) ->
  m_objs s' = m_objs s /\ m_idx s' = m_idx s /\
  lo_pk (m_lay s') = lo_pk (m_lay s) /\ lo_ptag (m_lay s') = lo_ptag (m_lay s) /\
  aget bseq (lo_pk (m_lay s)) (lo_fields (m_lay s')) = aget bseq (lo_pk (m_lay s)) (lo_fields (m_lay s)) /\
  (forall c f f', aget bseq c (lo_fields (m_lay s)) = Some f -> aget bseq c (lo_fields (m_lay s')) = Some f' ->
     forall v, accepts f v -> accepts f' v) /\
  (forall c, aget bseq c (lo_fields (m_lay s)) = None -> aget bseq c (lo_fields (m_lay s')) <> None ->
     exists l, k = AkAdd l /\ In c (map ef_name l)) /\
  (forall c, aget bseq c (lo_fields (m_lay s)) <> None -> aget bseq c (lo_fields (m_lay s')) = None ->
     exists ks, k = AkRemove ks /\ In c ks).
Proof.
  intros order OP farith s k ok s' [IL IN IR] HS. cbn [rstep] in HS.
  destruct (alter_cases order OP _ _ _ _ _ IL HS) as [[_ [X _]]|(_ & AL & ES & LO' & P1 & P2 & P3)]; [congruence|].
  split; [rewrite ES; reflexivity|]. split; [rewrite ES; reflexivity|]. split; [auto|]. split; [auto|]. split; [auto|].
  destruct k as [l|ks|l]; cbn [altered] in AL.
  - destruct AL as (fs & NM & NI & EF & _). rewrite EF. split; [|split].
    + intros c f f' G G'. rewrite aget_app_f, G in G'. inversion G'; subst. auto.
    + intros c G G'. rewrite aget_app_f, G in G'. exists l. split; [reflexivity|]. rewrite <- NM.
      destruct (aget bseq c fs) eqn:E; [|congruence]. apply (aget_some_key _ bseq_eq) in E. exact E.
    + intros c G G'. rewrite aget_app_f in G'. destruct (aget bseq c (lo_fields (m_lay s))); congruence.
  - destruct AL as (RO & EF & _). rewrite EF. split; [|split].
    + intros c f f' G G'. rewrite fold_adel_get in G'. destruct (in_dec (list_eq_dec Byte.byte_eq_dec) c ks); [discriminate|]. rewrite G in G'. inversion G'; subst. auto.
    + intros c G G'. rewrite fold_adel_get in G'. destruct (in_dec (list_eq_dec Byte.byte_eq_dec) c ks); congruence.
    + intros c G G'. rewrite fold_adel_get in G'. destruct (in_dec (list_eq_dec Byte.byte_eq_dec) c ks) as [i|]; [|congruence]. eauto.
  - destruct AL as (A1 & A2 & A3 & _). split; [|split].
    + intros c f f' G G'. destruct (A3 _ _ G') as (f0 & G0 & W). rewrite G in G0. inversion G0; subst. exact W.
    + intros c G G'. apply A1 in G. congruence.
    + intros c G G'. apply A1 in G'. congruence.
Qed.
Print Assumptions C23_alter_only_widens.

(** so REMOVE, UPDATE, and ADD of nullable columns keep every valid row valid, reading an added column
    as null *)
Definition valid_row (lay : layout) (m : bytes -> option cell) : Prop :=
  forall c f, aget bseq c (lo_fields lay) = Some f -> c <> lo_pk lay -> exists v, m c = Some v /\ accepts f v.
Definition seen_after (old new : layout) (m : bytes -> option cell) : bytes -> option cell := fun c =>
  match aget bseq c (lo_fields new) with
  | None => None
  | Some _ => match aget bseq c (lo_fields old) with Some _ => m c | None => Some CNull end
  end.
Theorem C23_rows_stay_valid_partial : forall order, (forall l, Permutation (order l) l) ->
  forall farith s k ok s' m, ginv s -> rstep farith order s (RAlter k ok) = (s', RoOk) ->
  (forall c f, aget bseq c (lo_fields (m_lay s)) = None -> aget bseq c (lo_fields (m_lay s')) = Some f -> f_null f = true) ->
  valid_row (m_lay s) m -> valid_row (m_lay s') (seen_after (m_lay s) (m_lay s') m).
Proof.
  intros order OP farith s k ok s' m I HS HN V c f' G NP.
  destruct (C23_alter_only_widens order OP farith s k ok s' I HS) as (_ & _ & P1 & _ & _ & W & _).
  unfold seen_after. rewrite G. destruct (aget bseq c (lo_fields (m_lay s))) as [f|] eqn:GO.
  - rewrite P1 in NP. destruct (V c f GO NP) as (v & E & A). exists v. split; [exact E|]. eapply W; eauto.
  - exists CNull. split; [reflexivity|]. left. split; [reflexivity|]. eapply HN; eauto.
Qed.
Print Assumptions C23_rows_stay_valid_partial.

Example C23_alter_example :
  let upd ty := RAlter (AkUpdate [mk_ef f_n [mk_ls (bstr ty) []] []]) true in
  map snd (snd (rrun (mst_new ex_lay)
    [ins 1 10; upd "uint32"%string; upd "uint16"%string; upd "sint64"%string;
     RAlter (AkUpdate [mk_ef f_s [mk_ls (bstr "string"%string) []] [(bstr "nullable"%string, DData (CBool false))]]) true;
     RAlter (AkRemove [f_id]) true; RAlter (AkRemove [f_s]) true])) =
    [RoOk; RoOk; RoErr (EAlter ErrNeedLock); RoErr (EAlter ErrType); RoErr (EAlter ErrNeedLock);
     RoErr (EAlter ErrAlter); RoOk].
Proof. vm_compute. reflexivity. Qed.

(** The full claim is false: a column that is not nullable can be added to a model with rows. *)
Theorem C23_add_non_null_refuted : exists s s',
  rhist noarith idorder (mst_new ex_lay) [(ins 1 10, RoOk)] s /\
  rstep noarith idorder s (RAlter (AkAdd [mk_ef (bstr "x"%string) [mk_ls (bstr "uint8"%string) []] []]) true) = (s', RoOk) /\
  (exists m, rows_of s (PkUInt 1) = Some m /\ valid_row (m_lay s) (fun c => aget bseq c m) /\
     ~ valid_row (m_lay s') (seen_after (m_lay s) (m_lay s') (fun c => aget bseq c m))).
Proof.
  pose proof (rrun_hist [ins 1 10] (mst_new ex_lay)) as R.
  assert (U : Forall (fun e => snd e <> RoUb) (snd (rrun (mst_new ex_lay) [ins 1 10]))) by (vm_compute; no_ub).
  specialize (R U). exists (fst (rrun (mst_new ex_lay) [ins 1 10])).
  exists (fst (rstep noarith idorder (fst (rrun (mst_new ex_lay) [ins 1 10])) (RAlter (AkAdd [mk_ef (bstr "x"%string) [mk_ls (bstr "uint8"%string) []] []]) true))).
  split; [exact R|]. split; [vm_compute; reflexivity|].
  exists [(f_n, CQw QU8 10); (f_s, CNull); (f_l, CList [CQw QU8 1])]. split; [vm_compute; reflexivity|].
  assert (E1 : m_lay (fst (rrun (mst_new ex_lay) [ins 1 10])) = ex_lay) by (vm_compute; reflexivity). rewrite E1.
  split.
  - intros c f G NP. apply (aget_in _ bseq_eq) in G. cbn in G.
    destruct G as [G|[G|[G|[G|[]]]]]; inversion G; subst.
    + elim NP. reflexivity.
    + eexists. split; [reflexivity|]. right. apply (conf_num _ QU8 QU8 10); [reflexivity|cbn; lia].
    + eexists. split; [reflexivity|]. left. auto.
    + eexists. split; [reflexivity|]. right. constructor. intros x [<-|[]].
      apply (conf_num _ QU8 QU8 1); [reflexivity|cbn; lia].
  - intros V. match type of V with valid_row ?l _ => set (L := l) in * end.
    assert (GX : aget bseq (bstr "x"%string) (lo_fields L) = Some (mk_field false [qsel_tsel QU8])) by (vm_compute; reflexivity).
    destruct (V _ _ GX) as (v & E & A); [vm_compute; discriminate|].
    unfold seen_after in E. rewrite GX in E. vm_compute in E. inversion E; subst v.
    destruct A as [[_ A]|A]; [discriminate A|]. inversion A.
Qed.
Print Assumptions C23_add_non_null_refuted.

(** ** C57: the WHERE clause *)

(** Conditions on columns other than the key are never looked at. *)
Theorem C57_other_conditions_ignored : forall farith order s w w' asg cols,
  aget bseq (lo_pk (m_lay s)) w = aget bseq (lo_pk (m_lay s)) w' ->
  rstep farith order s (RSelect w cols) = rstep farith order s (RSelect w' cols) /\
  rstep farith order s (RUpdate w asg) = rstep farith order s (RUpdate w' asg) /\
  rstep farith order s (RDelete w) = rstep farith order s (RDelete w').
Proof.
  intros farith order s w w' asg cols E. cbn [rstep]. unfold exec_select, exec_update, exec_delete, resolve_where.
  rewrite E. auto.
Qed.
Print Assumptions C57_other_conditions_ignored.

(** The claim that a statement only touches a row that satisfies all its conditions is false: this
    DELETE asks for [n = 99], the row has [n = 10], and it is deleted. *)
Theorem C57_conditions_refuted : exists s w,
  rhist noarith idorder (mst_new ex_lay) [(ins 1 10, RoOk)] s /\
  w = [(f_id, (OpEq, LUInt 1)); (f_n, (OpEq, LUInt 99))] /\
  snd (rstep noarith idorder s (RSelect w (Some [f_n]))) = RoRow [CQw QU8 10] /\
  snd (rstep noarith idorder s (RDelete w)) = RoOk /\
  rows_of (fst (rstep noarith idorder s (RDelete w))) (PkUInt 1) = None.
Proof.
  pose proof (rrun_hist [ins 1 10] (mst_new ex_lay)) as R.
  assert (U : Forall (fun e => snd e <> RoUb) (snd (rrun (mst_new ex_lay) [ins 1 10]))) by (vm_compute; no_ub).
  specialize (R U). exists (fst (rrun (mst_new ex_lay) [ins 1 10])).
  exists [(f_id, (OpEq, LUInt 1)); (f_n, (OpEq, LUInt 99))]. split; [exact R|]. split; [reflexivity|].
  vm_compute. repeat split.
Qed.
Print Assumptions C57_conditions_refuted.

(** what does hold: a clause on the key other than an equality, or with a literal of another type, is
    refused, whatever else the statement says *)
Theorem C57_key_condition_partial : forall farith order lay h s w asg cols, lay_ok lay ->
  rhist farith order (mst_new lay) h s -> Forall (fun e => dml_ok (fst e)) h ->
  asked lay w = None ->
  snd (rstep farith order s (RSelect w cols)) = RoErr EWhere /\
  snd (rstep farith order s (RUpdate w asg)) = RoErr EWhere /\
  snd (rstep farith order s (RDelete w)) = RoErr EWhere.
Proof.
  intros farith order lay h s w asg cols LO H HF HA.
  destruct (C19_table farith order lay h s LO H HF) as (_ & U & D & S & _).
  specialize (U w asg). specialize (D w). specialize (S w cols). rewrite HA in *. auto.
Qed.
Print Assumptions C57_key_condition_partial.
Example C57_key_condition_example :
  asked ex_lay [(f_id, (OpGt, LUInt 1))] = None /\ asked ex_lay [(f_id, (OpEq, LSInt 1))] = None /\
  asked ex_lay [(f_n, (OpEq, LUInt 1))] = None /\ asked ex_lay (at_key 1) = Some (PkUInt 1).
Proof. vm_compute. auto. Qed.

(** ** C58: point queries and full scans report the same values *)

(** Up to the recorded width of the key, the two statements report the same row. *)
Lemma strip_pk lay k : tuniq_is_unique (tsel_uniq (lo_ptag lay)) = true ->
  (exists w, asked lay w = Some k) -> strip (pk_cell (lo_ptag lay) k) = strip (key_cell k).
Proof.
  intros U [w A]. unfold asked in A. destruct (aget bseq (lo_pk lay) w) as [[[] l]|]; try discriminate A.
  destruct (lo_ptag lay); try discriminate U; destruct l; try discriminate A; inversion A; reflexivity.
Qed.
Theorem C58_same_row_partial : forall farith order lay h s w k cols, lay_ok lay ->
  rhist farith order (mst_new lay) h s -> Forall (fun e => dml_ok (fst e)) h ->
  asked lay w = Some k -> rows_of s k <> None ->
  Forall (fun c => In c (map fst (lo_fields lay))) (wanted lay cols) ->
  (length (wanted lay cols) <= length (lo_fields lay))%nat ->
  exists one rows row, snd (rstep farith order s (RSelect w cols)) = RoRow one /\
    snd (rstep farith order s (RSelectAll cols (N.of_nat (length (m_idx s))))) = RoRows rows /\
    In row rows /\ map strip row = map strip one.
Proof.
  intros farith order lay h s w k cols LO H HF HA HR FW LW.
  destruct (table_hist farith order lay h s LO H HF) as [I RT].
  assert (UP : tuniq_is_unique (tsel_uniq (lo_ptag lay)) = true) by (destruct LO as (_ & _ & f & _ & _ & U); exact U).
  pose proof (select_outcome farith order lay s w cols LO I) as S. rewrite HA in S.
  destruct (rows_of s k) as [m|] eqn:ER; [|congruence]. destruct S as [S _]. destruct (S FW) as (one & E1 & SH1).
  destruct (select_all_outcome farith order lay s cols (N.of_nat (length (m_idx s))) LO I) as [SA _].
  destruct (SA FW LW) as (all & rows & A1 & A2 & A3 & A4).
  assert (LEN : (length all <= length (m_idx s))%nat).
  { rewrite <- (map_length fst (m_idx s)). apply NoDup_incl_length; [exact A1|]. intros x Hx. apply A2 in Hx.
    unfold rows_of in Hx. destruct (aget pkey_eqb x (m_idx s)) eqn:G; [|congruence].
    apply (aget_some_key _ pkey_eqb_eq) in G. exact G. }
  rewrite Nat2N.id, firstn_all2 in A4 by exact LEN.
  assert (Hk : In k all) by (apply A2; congruence).
  assert (X : exists row, In row rows /\ exists m', rows_of s k = Some m' /\ shows lay (pk_cell (lo_ptag lay) k) m' (wanted lay cols) row).
  { clear -A4 Hk. induction A4 as [|x r all rows P F IH]; [contradiction|]. destruct Hk as [->|Hk].
    - exists r. split; [left; reflexivity|exact P].
    - destruct (IH Hk) as (row & Hin & Q). exists row. split; [right|]; auto. }
  destruct X as (row & Hin & m' & EM & SH2). rewrite ER in EM. inversion EM; subst m'.
  exists one, rows, row. split; [exact E1|]. split; [exact A3|]. split; [exact Hin|].
  assert (SP : strip (pk_cell (lo_ptag lay) k) = strip (key_cell k)) by (apply strip_pk; eauto).
  clear -SH1 SH2 SP. revert one row SH1 SH2. generalize (wanted lay cols). intros l one row SH1. revert row.
  induction SH1 as [|c v l one P F IH]; intros row SH2; inversion SH2 as [|? v' ? row' P' F']; subst; [reflexivity|].
  cbn [map]. f_equal; [|apply IH; exact F'].
  destruct P as [[-> ->]|[N1 G1]]; destruct P' as [[E2 ->]|[N2 G2]]; try congruence; contradiction.
Qed.
Print Assumptions C58_same_row_partial.

(** The exact claim is false: for a key of type uint8 the point query reports a 64-bit integer, the
    scan an 8-bit one. *)
Definition u8_lay : layout :=
  mk_layout 7 f_id (qsel_tsel QU8) [(f_id, mk_field false [qsel_tsel QU8]); (f_n, mk_field false [qsel_tsel QU8])].
Theorem C58_key_type_refuted : exists s,
  rhist noarith idorder (mst_new u8_lay) [(RInsert (InsTuple [CQw QU64 1; CQw QU64 2]), RoOk)] s /\
  snd (rstep noarith idorder s (RSelect (at_key 1) None)) = RoRow [CQw QU64 1; CQw QU8 2] /\
  snd (rstep noarith idorder s (RSelectAll None 5)) = RoRows [[CQw QU8 1; CQw QU8 2]].
Proof.
  pose (qs := [RInsert (InsTuple [CQw QU64 1; CQw QU64 2])]).
  assert (U : Forall (fun e => snd e <> RoUb) (snd (rrun (mst_new u8_lay) qs))) by (vm_compute; no_ub).
  pose proof (rrun_hist qs (mst_new u8_lay) U) as R.
  exists (fst (rrun (mst_new u8_lay) qs)). split; [exact R|]. vm_compute. repeat split.
Qed.
Print Assumptions C58_key_type_refuted.

(** ** C59: the order of columns *)

(** ADD appends the new columns in the order written; REMOVE keeps the order of the others. *)
Theorem C59_order_partial : forall order, (forall l, Permutation (order l) l) ->
  forall farith s k ok s', ginv s -> rstep farith order s (RAlter k ok) = (s', RoOk) ->
  match k with
  | AkAdd l => map fst (lo_fields (m_lay s')) = map fst (lo_fields (m_lay s)) ++ map ef_name l
  | AkRemove ks => map fst (lo_fields (m_lay s')) =
      filter (fun c => negb (existsb (fun x => bseq x c) ks)) (map fst (lo_fields (m_lay s)))
  | AkUpdate _ => forall c, In c (map fst (lo_fields (m_lay s'))) <-> In c (map fst (lo_fields (m_lay s)))
  end.
Proof.
  intros order OP farith s k ok s' [IL IN IR] HS. cbn [rstep] in HS.
  destruct (alter_cases order OP _ _ _ _ _ IL HS) as [[_ [X _]]|(_ & AL & _)]; [congruence|].
  destruct k as [l|ks|l]; cbn [altered] in AL.
  - destruct AL as (fs & NM & NI & EF & _). rewrite EF, map_app, NM. reflexivity.
  - destruct AL as (_ & EF & _). rewrite EF. generalize (lo_fields (m_lay s)). clear.
    induction ks as [|x ks IH]; intros fs; cbn [fold_left existsb].
    + induction (map fst fs) as [|a l IHl]; [reflexivity|]. cbn [filter negb]. f_equal. exact IHl.
    + rewrite IH. clear IH. unfold adel. induction fs as [|[a b] fs IHf]; [reflexivity|]. cbn [filter map fst].
      destruct (bseq x a) eqn:E; cbn [negb orb]; [exact IHf|]. cbn [map fst filter].
      destruct (existsb (fun y => bseq y a) ks); cbn [negb]; [exact IHf|]. f_equal. exact IHf.
  - destruct AL as (A1 & _). intros c.
    rewrite <- (f_has_keys c (lo_fields (m_lay s'))), <- (f_has_keys c (lo_fields (m_lay s))). unfold f_has, f_get.
    specialize (A1 c). destruct (aget bseq c (lo_fields (m_lay s))), (aget bseq c (lo_fields (m_lay s')));
      split; intros; try reflexivity; try discriminate; destruct A1 as [A1 A2]; (discriminate (A1 eq_refl) || discriminate (A2 eq_refl)).
Qed.
Print Assumptions C59_order_partial.

(** UPDATE moves the changed column to the end: the positional INSERT that was right before the
    statement is refused after it, and SELECT * reports another order. *)
Theorem C59_update_reorders_refuted : exists s,
  let alter := RAlter (AkUpdate [mk_ef f_n [mk_ls (bstr "uint16"%string) []] []]) true in
  rhist noarith idorder (mst_new ex_lay) [(ins 1 10, RoOk); (alter, RoOk)] s /\
  map fst (lo_fields (m_lay s)) = [f_id; f_s; f_l; f_n] /\
  snd (rstep noarith idorder s (ins 2 20)) = RoErr EValid /\
  snd (rstep noarith idorder s (RSelect (at_key 1) None)) = RoRow [CQw QU64 1; CNull; CList [CQw QU8 1]; CQw QU8 10].
Proof.
  pose (qs := [ins 1 10; RAlter (AkUpdate [mk_ef f_n [mk_ls (bstr "uint16"%string) []] []]) true]).
  assert (U : Forall (fun e => snd e <> RoUb) (snd (rrun (mst_new ex_lay) qs))) by (vm_compute; no_ub).
  pose proof (rrun_hist qs (mst_new ex_lay) U) as R.
  exists (fst (rrun (mst_new ex_lay) qs)). cbv zeta. split; [exact R|]. vm_compute. repeat split.
Qed.
Print Assumptions C59_update_reorders_refuted.
