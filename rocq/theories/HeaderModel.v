(** SDSS file header: storage/common/sdss/impls/sdss_r1/mod.rs, storage/common/static_meta.rs,
    storage/common/versions/{mod,server_version}.rs, storage/v2/raw/spec.rs. *)
From Coq Require Import List NArith Bool Strings.String.
From Verif Require Import Bytes.
Import ListNotations.
Local Open Scope N_scope.

(** [VERSION_TAGS], versions/server_version.rs:27-80 *)
Definition version_tags : list bytes := map bstr
  ["v0.1.0"; "v0.2.0"; "v0.3.0"; "v0.3.1"; "v0.3.2"; "v0.4.0-alpha.1"; "v0.4.0-alpha.2"; "v0.4.0";
   "v0.4.1-alpha.1"; "v0.4.1"; "v0.4.2-alpha.1"; "v0.4.2"; "v0.4.3-alpha.1"; "v0.4.3"; "v0.4.4";
   "v0.4.5-alpha.1"; "v0.4.5-alpha.2"; "v0.4.5"; "v0.5.0-alpha.1"; "v0.5.0-alpha.2"; "v0.5.0";
   "v0.5.1-alpha.1"; "v0.5.1"; "v0.5.2"; "v0.5.3"; "v0.6.0"; "v0.6.1"; "v0.6.2-testrelease.1";
   "v0.6.2"; "v0.6.3-alpha.1"; "v0.6.3"; "v0.6.4-alpha.1"; "v0.6.4"; "v0.7.0-RC.1";
   "v0.7.0-alpha.1"; "v0.7.0-alpha.2"; "v0.7.0-beta.1"; "v0.7.0"; "v0.7.1-alpha.1"; "v0.7.1";
   "v0.7.2-alpha.1"; "v0.7.2"; "v0.7.3-alpha.1"; "v0.7.3-alpha.2"; "v0.7.3-alpha.3"; "v0.7.3";
   "v0.7.4"; "v0.7.5"; "v0.7.6"; "v0.7.7"; "v0.8.0-alpha.1"; "v0.8.0"]%string.

(** inner loop of [fetch_id], server_version.rs:88-96: [j] runs over the tag but the bytes compared
    are those at index [i], the index of the tag in the table; the loop does not run at all when
    the lengths differ. [None] is the panic on an out-of-bounds index. *)
Definition fetch_id_eq (i : nat) (tag given : bytes) : option bool :=
  if negb (Nat.eqb (List.length tag) (List.length given)) then Some true else
  match tag with
  | [] => Some true
  | _ => match nth_error tag i, nth_error given i with
         | Some a, Some b => Some (beq a b)
         | _, _ => None
         end
  end.

(** [fetch_id], server_version.rs:82-103; [None] = compile-time panic *)
Fixpoint fetch_id_from (i : nat) (tags : list bytes) (given : bytes) : option N :=
  match tags with
  | [] => None
  | t :: ts =>
      match fetch_id_eq i t given with
      | None => None
      | Some true => Some (N.of_nat i)
      | Some false => fetch_id_from (S i) ts given
      end
  end.

(** [fetch_id], server_version.rs:82-103 *)
Definition fetch_id (given : bytes) : option N := fetch_id_from 0 version_tags given.

(** [HeaderV1], sdss_r1/mod.rs:109-130, with enum fields as discriminants *)
Record header := mk_header {
  h_version : N; h_server : N; h_driver : N;
  h_os : N; h_arch : N; h_ptr : N; h_endian : N;
  h_class : N; h_spec : N; h_specver : N;
  h_epoch : N; h_padding : bytes
}.

(** [SDSS_MAGIC_8B], static_meta.rs:33 *)
Definition sdss_magic : N := 0x4F48534159414E21.
(** [HEADER_V1], versions/mod.rs:34 and 96 *)
Definition header_v1 : N := 0.
(** largest discriminants: static_meta.rs:48-55, 90-108, 187-190, 159-162; v2/raw/spec.rs:48-51, 65-68 *)
Definition max_arch : N := 5.
(** static_meta.rs:90-108 *)
Definition max_os : N := 13.
(** static_meta.rs:187-190 *)
Definition max_ptr : N := 1.
(** static_meta.rs:159-162 *)
Definition max_endian : N := 1.
(** v2/raw/spec.rs:48-51 *)
Definition max_class : N := 1.
(** v2/raw/spec.rs:65-68 *)
Definition max_spec : N := 1.

(** What a build of the server writes: versions ([CURRENT_SERVER_VERSION], [CURRENT_DRIVER_VERSION],
    v2/raw/spec.rs:72-77) and host description ([HostOS::new] etc., static_meta.rs) *)
Record build := mk_build { b_server : N; b_driver : N; b_os : N; b_arch : N; b_ptr : N; b_endian : N }.

(** a file specification ([SimpleFileSpecV1]): class, specifier and specifier version,
    sdss_r1/mod.rs:436-440; v2/raw/spec.rs:79-93 *)
Record filespec := mk_spec { fs_class : N; fs_spec : N; fs_ver : N }.
(** [SystemDatabaseV1], v2/raw/spec.rs:79-85 *)
Definition spec_gns : filespec := mk_spec 0 0 0.
(** [ModelDataBatchAofV1], v2/raw/spec.rs:87-93 *)
Definition spec_model : filespec := mk_spec 1 1 0.

(** [HeaderV1::_encode_auto_raw], sdss_r1/mod.rs:200-232 (segments 133-145 written in order) *)
Definition enc_header (b : build) (s : filespec) (epoch : N) (padding : bytes) : bytes :=
  u64_le sdss_magic ++ u64_le header_v1 ++ u64_le (b_server b) ++ u64_le (b_driver b)
  ++ [n2b (b_os b); n2b (b_arch b); n2b (b_ptr b); n2b (b_endian b); n2b (fs_class s); n2b (fs_spec s)]
  ++ u16_le (fs_ver s) ++ u128_le epoch ++ padding.

(** [HeaderV1::_new_auto], sdss_r1/mod.rs:148-169 *)
Definition new_header (b : build) (s : filespec) (epoch : N) (padding : bytes) : header :=
  mk_header header_v1 (b_server b) (b_driver b) (b_os b) (b_arch b) (b_ptr b) (b_endian b)
    (fs_class s) (fs_spec s) (fs_ver s) epoch padding.

(** slice [block[a..a+n]] of a 64-byte block *)
Definition seg (a n : nat) (l : bytes) : bytes := firstn n (skipn a l).

(** errors of [decode]/[validate_metadata], sdss_r1/mod.rs:340-348, 447, 469 *)
Inductive hres := HOk (h : header) | HCorrupted | HVersionMismatch.

(** [HeaderV1::decode], sdss_r1/mod.rs:267-350; the server/driver compatibility checks are the
    defaults (77-83). The argument is the 64-byte block. *)
Definition dec_header (b : build) (l : bytes) : hres :=
  let h := mk_header (le_dec (seg 8 8 l)) (le_dec (seg 16 8 l)) (le_dec (seg 24 8 l))
             (le_dec (seg 32 1 l)) (le_dec (seg 33 1 l)) (le_dec (seg 34 1 l)) (le_dec (seg 35 1 l))
             (le_dec (seg 36 1 l)) (le_dec (seg 37 1 l)) (le_dec (seg 38 2 l))
             (le_dec (seg 40 16 l)) (seg 56 8 l) in
  let okay_hv := h_version h =? header_v1 in
  let okay_sv := h_server h =? b_server b in
  let okay_dv := h_driver h =? b_driver b in
  if (le_dec (seg 0 8 l) =? sdss_magic) && okay_hv && okay_sv && okay_dv
     && (h_os h <=? max_os) && (h_arch h <=? max_arch) && (h_ptr h <=? max_ptr)
     && (h_endian h <=? max_endian) && (h_class h <=? max_class) && (h_spec h <=? max_spec)
  then HOk h
  else if okay_hv && okay_sv && okay_dv then HCorrupted else HVersionMismatch.

(** [SimpleFileSpecV1::validate_metadata], sdss_r1/mod.rs:457-471, after [decode]
    ([read_metadata], 407-413) *)
Definition open_header (b : build) (s : filespec) (l : bytes) : hres :=
  match dec_header b l with
  | HOk h =>
      if negb (h_specver h =? fs_ver s) then HVersionMismatch
      else if (h_class h =? fs_class s) && (h_spec h =? fs_spec s) then HOk h
      else HVersionMismatch
  | e => e
  end.
