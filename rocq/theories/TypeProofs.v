(** Proofs about type names and layers. *)
From Coq Require Import Strings.String List NArith Bool Lia.
From Verif Require Import Bytes DataModel CodecModel CodecProofs TypeModel.
Import ListNotations.
Local Open Scope N_scope.

(** the documented name of each type *)
Definition type_name (t : tsel) : bytes :=
  match t with
  | TsBool => bstr "bool"%string
  | TsU8 => bstr "uint8"%string | TsU16 => bstr "uint16"%string
  | TsU32 => bstr "uint32"%string | TsU64 => bstr "uint64"%string
  | TsS8 => bstr "sint8"%string | TsS16 => bstr "sint16"%string
  | TsS32 => bstr "sint32"%string | TsS64 => bstr "sint64"%string
  | TsF32 => bstr "float32"%string | TsF64 => bstr "float64"%string
  | TsBin => bstr "binary"%string | TsStr => bstr "string"%string | TsList => bstr "list"%string
  end.

Lemma type_name_inj a b : type_name a = type_name b -> a = b.
Proof. destruct a, b; intros H; try reflexivity; discriminate H. Qed.

Lemma get_layer_exact id t : get_layer id = Some t <-> id = type_name t.
Proof.
  split.
  - unfold get_layer. destruct (nth_error ty_lut _) as [[n t']|] eqn:E; [|discriminate].
    destruct (bseq n id) eqn:EB; [|discriminate]. intros H; inversion H; subst t'.
    apply bseq_eq in EB as <-. apply nth_error_In in E. cbn [ty_lut In] in E.
    repeat destruct E as [E|E]; try (injection E as <- <-; reflexivity). contradiction.
  - intros ->. destruct t; vm_compute; reflexivity.
Qed.

Lemma tsel_eqb_eq a b : tsel_eqb a b = true <-> a = b.
Proof. split; [|intros ->; destruct b; reflexivity]. destruct a, b; intros H; try reflexivity; discriminate. Qed.

Definition plain_layer (t : tsel) : layer_spec := mk_ls (type_name t) [].

Lemma parse_layers_go_exact ls : forall acc layers,
  parse_layers_go ls acc = (true, true, [], layers) <->
  exists s, layers_ok s /\ layers = acc ++ s /\ ls = map plain_layer s.
Proof.
  induction ls as [|[ty props] ls IH]; intros acc layers; cbn [parse_layers_go ls_ty ls_props].
  - split; [discriminate|]. intros (s & HS & _ & HE). destruct HS; discriminate.
  - destruct (get_layer ty) as [t|] eqn:EG.
    + apply get_layer_exact in EG as ->.
      destruct props as [|pv props].
      * cbn [andb]. destruct (tsel_eqb t TsList) eqn:ET; cbn [negb].
        -- apply tsel_eqb_eq in ET as ->. rewrite IH. split.
           ++ intros (s & HS & -> & ->). exists (TsList :: s). split; [constructor; auto|].
              rewrite <- app_assoc. auto.
           ++ intros (s & HS & -> & HE). destruct HS as [s Hs|s Hs]; cbn [map] in HE.
              ** inversion HE as [H1]. change (bstr "list") with (type_name TsList) in H1.
                 apply type_name_inj in H1. congruence.
              ** inversion HE; subst. exists s. rewrite <- app_assoc. auto.
        -- assert (HT : t <> TsList) by (intros ->; discriminate). split.
           ++ intros H; injection H as -> <-. exists [t]. split; [constructor; auto|]. auto.
           ++ intros (s & HS & -> & HE). destruct HS as [s Hs|s Hs]; cbn [map] in HE.
              ** inversion HE as [[H1 H2]]. apply type_name_inj in H1 as <-. reflexivity.
              ** inversion HE as [[H1 H2]]. change (bstr "list") with (type_name TsList) in H1.
                 apply type_name_inj in H1. congruence.
      * cbn [andb]. split; [discriminate|].
        intros (s & HS & _ & HE). destruct HS; discriminate.
    + split; [discriminate|]. intros (s & HS & _ & HE).
      assert (HG : exists t, ty = type_name t) by (destruct HS as [t|s0]; inversion HE; eauto; exists TsList; reflexivity).
      destruct HG as [t HG]. apply get_layer_exact in HG. congruence.
Qed.

Lemma parse_layers_exact spec nullable f :
  parse_layers spec nullable = Some f <->
  f_null f = nullable /\ layers_ok (f_layers f) /\ spec = rev (map plain_layer (f_layers f)).
Proof.
  unfold parse_layers.
  pose proof (parse_layers_go_exact (rev spec) []) as HX.
  destruct (parse_layers_go (rev spec) []) as [[[okay fin] rest] layers] eqn:E. split.
  - destruct okay, fin, rest; cbn [andb]; try discriminate.
    intros H; inversion H; subst f. cbn [f_null f_layers].
    destruct (proj1 (HX layers) eq_refl) as (s & HS & -> & HE). cbn [app].
    split; auto. split; auto. rewrite <- HE, rev_involutive. reflexivity.
  - intros (HN & HL & ->).
    assert (HE : (okay, fin, rest, layers) = (true, true, [], f_layers f)).
    { apply HX. exists (f_layers f). rewrite rev_involutive. auto. }
    inversion HE; subst. cbn [andb]. destruct f; reflexivity.
Qed.
