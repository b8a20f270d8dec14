(** Names of directories and files, storage/common/mod.rs. All paths are below /repo/server/src/engine/. *)
From Coq Require Import Strings.String List NArith Bool.
From Verif Require Import Bytes.
Import ListNotations.

Section Path.
(** the text of a uuid: [Display] of the crate uuid, data/uuid.rs:50-54 *)
Variable uuid : N -> bytes.
(** [space_dir], storage/common/mod.rs:54-56 *)
Definition space_dir (k : bytes) (u : N) : bytes := bstr "data/"%string ++ k ++ bstr "-"%string ++ uuid u.
(** [model_dir], storage/common/mod.rs:46-53 *)
Definition model_dir (k : bytes) (u : N) (m : bytes) (v : N) : bytes :=
  bstr "data/"%string ++ k ++ bstr "-"%string ++ uuid u ++ bstr "/mdl_"%string ++ m ++ bstr "-"%string ++ uuid v.
(** [model_path], storage/common/mod.rs:35-45 *)
Definition model_path (k : bytes) (u : N) (m : bytes) (v : N) : bytes := model_dir k u m v ++ bstr "/data.db-btlog"%string.
End Path.
