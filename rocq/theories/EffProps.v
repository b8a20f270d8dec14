(** C70: schema and account statements do exactly what EffSpec.v says. *)
From Coq Require Import Strings.String List Arith NArith Bool Lia Permutation.
From Verif Require Import Bytes AMap DataModel CodecModel CodecProofs GnsCodecModel DictModel DictProofs TypeModel TypeProofs GnsModel GnsProofs GnsHist GnsProps EffSpec EffProofs.
Import ListNotations.
Local Open Scope N_scope.

(** ** C70 *)

(** In every state reached without a failed forced DROP SPACE, with storage working, every statement is
    answered as specified and changes the spaces, models and accounts as specified, and nothing else.
    [nullable: null] is left out: it panics (C54). *)
Theorem C70_exact_effect : forall order hash verify, (forall l, Permutation (order l) l) ->
  forall key salt l sv, hist order hash verify key salt l sv -> Forall op_nd l -> Forall no_failed_drop l ->
  forall se en s w' o, w_iffy (sv_w sv) = false -> e_init en = true -> e_commit en = true ->
  stmt_nd s -> ~ null_nullable s ->
  exec_stmt order hash se en (sv_w sv) s = (w', o) ->
  exists ch, does hash (cat_of (w_ns (sv_w sv))) se en s o ch /\
             cat_eq (cat_of (w_ns w')) (changed ch (cat_of (w_ns (sv_w sv)))).
Proof.
  intros order hash verify OP key salt l sv H ND NF se en s w' o IF EI EC SN NN E.
  destruct (hist_inv _ _ _ OP _ _ _ _ H ND NF) as [[W L _] _].
  eapply exec_does; eauto.
Qed.
Print Assumptions C70_exact_effect.

(** The specification leaves no choice: two answers to the same statement are the same, or both are
    errors; and a refused statement changes nothing. *)
Definition is_err (o : outcome) : bool := match o with OErr _ => true | _ => false end.
Theorem C70_one_answer : forall hash c se en s o1 ch1 o2 ch2,
  does hash c se en s o1 ch1 -> does hash c se en s o2 ch2 ->
  (is_err o1 = true -> ch1 = Nothing) /\ (is_err o1 = true /\ is_err o2 = true \/ o1 = o2).
Proof.
  intros hash c se en s o1 ch1 o2 ch2 H1 H2. split.
  { inversion H1; subst; try reflexivity; cbn; try discriminate; unfold done; destruct nx || destruct ex; discriminate. }
  inversion H1; subst; inversion H2; subst; try congruence; try (left; split; reflexivity); try (right; reflexivity);
    try match goal with
        | A : forall p, ~ space_options _ p, B : space_options _ _ |- _ => elim (A _ B)
        | A : forall p, ~ model_def _ _ _ p, B : model_def _ _ _ _ |- _ => elim (A _ B)
        | A : forall p, ~ model_altered _ _ p, B : model_altered _ _ _ |- _ =>
            match goal with C1 : c_model c ?i = Some _, C2 : c_model c ?i = Some _ |- _ =>
              rewrite C1 in C2; inversion C2; subst; first [elim (A _ B) | idtac] end
        | A : forall p, ~ space_altered _ _ p, B : space_altered _ _ _ |- _ =>
            match goal with C1 : c_space c ?i = Some _, C2 : c_space c ?i = Some _ |- _ =>
              rewrite C1 in C2; inversion C2; subst; first [elim (A _ B) | idtac] end
        | A : forall p, ~ user_opts _ p, B : user_opts _ _ |- _ => elim (A _ B)
        | A : space_altered _ [] _ |- _ => inversion A
        | A : _ \/ _ |- _ => destruct A; congruence
        end.
  all: try (exfalso; match goal with A : false = true \/ _ |- _ => destruct A as [A|A]; [discriminate A|congruence] end).
Qed.
Print Assumptions C70_one_answer.

(** ** A concrete history that meets the hypotheses *)
Definition eff_ops : list op :=
  [OpLogin ROOT gx_pw;
   OpStmt 0 (gx_env 11 true) (SCreateSpace gx_s [] true);
   OpStmt 0 (gx_env 12 true) (SCreateSpace gx_s [] true);
   OpStmt 0 (gx_env 13 true) (SCreateSpace gx_s [] false);
   OpStmt 0 (gx_env 14 true) (SCreateModel (gx_s, gx_m) gx_fields [] false);
   OpStmt 0 (gx_env 15 true) (SCreateModel (gx_s, bstr "bad"%string) [mk_fs (bstr "id"%string) [gx_layer "uint64"%string] true true] [] false);
   OpStmt 0 (gx_env 16 true) (SCreateModel (gx_s, bstr "bad"%string) [mk_fs (bstr "id"%string) [gx_layer "float64"%string] false true] [] false);
   OpStmt 0 (gx_env 17 true) (SAlterModel (gx_s, gx_m) (AkAdd [mk_ef (bstr "n"%string) [gx_layer "uint16"%string] []]));
   OpStmt 0 (gx_env 18 true) (SAlterModel (gx_s, gx_m) (AkUpdate [mk_ef (bstr "n"%string) [gx_layer "uint8"%string] []]));
   OpStmt 0 (gx_env 19 true) (SAlterModel (gx_s, gx_m) (AkUpdate [mk_ef (bstr "name"%string) [gx_layer "string"%string] []]));
   OpStmt 0 (gx_env 20 true) (SAlterModel (gx_s, gx_m) (AkUpdate [mk_ef (bstr "n"%string) [gx_layer "uint32"%string] [(K_nullable, DData (CBool true))]]));
   OpStmt 0 (gx_env 21 true) (SAlterModel (gx_s, gx_m) (AkRemove [bstr "id"%string]));
   OpStmt 0 (gx_env 22 true) (SAlterModel (gx_s, gx_m) (AkRemove [bstr "name"%string]));
   OpStmt 0 (gx_env 23 true) (SDropSpace gx_s false true);
   OpStmt 0 (gx_env 24 true) (SCreateUser (bstr "ana"%string) (gx_pass "pw1" ++ [(bstr "x"%string, gx_cell 1)]));
   OpStmt 0 (gx_env 25 true) (SCreateUser (bstr "ana"%string) (gx_pass "pw1"))].
Example C70_example : gx_check eff_ops = true /\
  option_map (fun r => map snd (fst r)) (gx_run eff_ops) = Some
    [OutLogin true; OutStmt (OBool true); OutStmt (OBool false); OutStmt (OErr ErrExists); OutStmt OEmpty;
     OutStmt (OErr ErrBadDef); OutStmt (OErr ErrBadDef); OutStmt OEmpty; OutStmt (OErr ErrNeedLock);
     OutStmt (OErr ErrNeedLock); OutStmt OEmpty; OutStmt (OErr ErrAlter); OutStmt OEmpty;
     OutStmt (OErr ErrNotEmpty); OutStmt (OErr ErrProps); OutStmt OEmpty] /\
  option_map (fun r => let n := w_ns (sv_w (snd r)) in
     (w_iffy (sv_w (snd r)), map (fun x => (lo_fields (md_lay (snd x)), md_ver (snd x))) (n_models n), map fst (n_users n))) (gx_run eff_ops)
  = Some (false, [([(bstr "id"%string, mk_field false [TsU64]); (bstr "n"%string, mk_field true [TsU32])], 2)],
          [ROOT; bstr "ana"%string]).
Proof. repeat split; vm_compute; reflexivity. Qed.
