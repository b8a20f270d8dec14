(** Property theorems: payloads of system-log events (C04). *)
From Coq Require Import List NArith Strings.String.
From Verif Require Import Bytes DataModel CodecModel CodecProofs CodecProps GnsCodecModel GnsCodecProofs.
Import ListNotations.
Local Open Scope N_scope.

(** ** C04 *)
Theorem C04_event_roundtrip : forall utf8 e, event_wf utf8 e ->
  dec_event utf8 (ev_code e) (enc_event e) = ROk e.
Proof. intros utf8 e. exact (event_roundtrip utf8 e). Qed.
Print Assumptions C04_event_roundtrip.

(** the dispatch by event code never yields an operation of another kind *)
Theorem C04_event_kind : forall utf8 code l e, dec_event utf8 code l = ROk e -> ev_code e = code.
Proof. intros utf8 code l e. exact (event_kind utf8 code l e). Qed.
Print Assumptions C04_event_kind.

Definition ex_sid : space_id := mk_sid 77 (bstr "myspace").
Definition ex_mid : model_id := mk_mid ex_sid (bstr "mymodel") 3 99.

Example C04_example : Forall (event_wf (fun _ => true))
  [EvCreateSpace (bstr "myspace") (mk_space_layout 77 ex_dict);
   EvAlterSpace ex_sid ex_dict;
   EvDropSpace ex_sid;
   EvCreateModel ex_sid (bstr "mymodel") ex_layout;
   EvAlterModelAdd ex_mid (lo_fields ex_layout);
   EvAlterModelRemove ex_mid [bstr "a"; bstr "bc"];
   EvAlterModelUpdate ex_mid (lo_fields ex_layout);
   EvDropModel ex_mid;
   EvCreateUser (bstr "root") [x01; x02];
   EvAlterUser (bstr "root") [x01; x02];
   EvDropUser (bstr "joe")].
Proof.
  assert (HF : fieldmap_wf (fun _ => true) (lo_fields ex_layout)) by apply C03_example_wf.
  repeat (apply Forall_cons || apply Forall_nil); cbn [event_wf];
  repeat first [ exact C02_example_wf | exact C03_example_wf | exact HF | split ]; try reflexivity.
  repeat constructor.
Qed.
