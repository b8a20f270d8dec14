(** Property theorems: type names and layers (C45). *)
From Coq Require Import Strings.String List NArith Bool.
From Verif Require Import Bytes DataModel CodecModel CodecProofs TypeModel TypeProofs.
Import ListNotations.
Local Open Scope N_scope.

(** ** C45: a type name is recognised if and only if it is a documented one, and it then denotes the
    documented type *)
Theorem C45_type_name_exact : forall id t, get_layer id = Some t <-> id = type_name t.
Proof. exact get_layer_exact. Qed.
Print Assumptions C45_type_name_exact.

(** unknown names are refused: names are case sensitive and no prefix or extension is accepted *)
Theorem C45_unknown_type_refused : forall id, (forall t, id <> type_name t) <-> get_layer id = None.
Proof.
  intros id. split.
  - intros H. destruct (get_layer id) as [t|] eqn:E; [|reflexivity].
    apply get_layer_exact in E. elim (H t E).
  - intros H t ->. assert (X : get_layer (type_name t) = Some t) by (apply get_layer_exact; reflexivity).
    congruence.
Qed.
Print Assumptions C45_unknown_type_refused.

(** ** A field type, written innermost layer first, is accepted exactly when it is the documented
    names of zero or more lists around one scalar type, none of them with properties; the field then
    has those layers and the requested nullability. *)
Theorem C45_field_type_exact : forall spec nullable f,
  parse_layers spec nullable = Some f <->
  exists n t, t <> TsList /\ f = mk_field nullable (repeat TsList n ++ [t]) /\
    spec = mk_ls (type_name t) [] :: repeat (mk_ls (bstr "list"%string) []) n.
Proof.
  intros spec nullable f. rewrite parse_layers_exact. split.
  - intros (HN & HL & HS).
    assert (HX : exists n t, t <> TsList /\ f_layers f = repeat TsList n ++ [t]).
    { clear -HL. induction HL as [s Hs|ls Hls IH].
      - exists 0%nat, s. auto.
      - destruct IH as (n & t & Ht & ->). exists (S n), t. auto. }
    destruct HX as (n & t & Ht & EL). exists n, t. split; [exact Ht|]. split.
    + destruct f as [fn fl]; cbn [f_null f_layers] in *. subst. reflexivity.
    + rewrite HS, EL, map_app, rev_app_distr. cbn [map rev app]. f_equal.
      clear. induction n as [|n IH]; [reflexivity|].
      cbn [repeat map rev]. rewrite IH. clear. induction n as [|n IH]; [reflexivity|].
      cbn [repeat app]. rewrite IH. reflexivity.
  - intros (n & t & Ht & -> & ->). cbn [f_null f_layers]. split; [reflexivity|]. split.
    + induction n as [|n IH]; cbn [repeat app]; constructor; auto.
    + rewrite map_app, rev_app_distr. cbn [map rev app]. f_equal.
      clear. induction n as [|n IH]; [reflexivity|].
      cbn [repeat map rev]. rewrite <- IH. clear. induction n as [|n IH]; [reflexivity|].
      cbn [repeat app]. rewrite <- IH. reflexivity.
Qed.
Print Assumptions C45_field_type_exact.

Example C45_example_accepted :
  parse_layers [mk_ls (bstr "uint32"%string) []; mk_ls (bstr "list"%string) []; mk_ls (bstr "list"%string) []] true
  = Some (mk_field true [TsList; TsList; TsU32]).
Proof. vm_compute. reflexivity. Qed.
Example C45_example_refused :
  parse_layers [mk_ls (bstr "list"%string) []] true = None /\
  parse_layers [mk_ls (bstr "string"%string) []; mk_ls (bstr "string"%string) []] true = None /\
  parse_layers [mk_ls (bstr "String"%string) []] true = None /\
  parse_layers [mk_ls (bstr "string"%string) [(bstr "maxlen"%string, DData (CQw QU64 7))]] true = None.
Proof. vm_compute. auto. Qed.
