(** The checksum used by the storage engine: [SCrc64], storage/common/checksum.rs. *)
From Coq Require Import List NArith Bool.
From Verif Require Import Bytes.
Import ListNotations.
Local Open Scope N_scope.

(** storage/common/checksum.rs:33 and 42: [CRC_64_XZ] of crate [crc] (the catalogue entry CRC-64/XZ:
    polynomial 0x42F0E1EBA9EA3693, reflected input and output, initial value and final xor all
    ones). [crc_poly] is the bit-reversed polynomial. The crate's table-driven loop is modelled by
    the bit-by-bit definition of the same code; the catalogue's check value is verified in
    CrcProofs. *)
Definition crc_poly : N := 0xC96C5795D7870F42.
(** initial value and final xor, storage/common/checksum.rs:42 *)
Definition crc_ones : N := 0xFFFFFFFFFFFFFFFF.

(** one bit step of the reflected CRC register (crate [crc], used from checksum.rs:70) *)
Definition crc_bit (s : N) : N :=
  if N.odd s then N.lxor (N.div2 s) crc_poly else N.div2 s.

(** eight bit steps *)
Definition crc_bit8 (s : N) : N :=
  crc_bit (crc_bit (crc_bit (crc_bit (crc_bit (crc_bit (crc_bit (crc_bit s))))))).

(** one byte of [Digest::update], checksum.rs:69-71 *)
Definition crc_byte (s : N) (b : byte) : N := crc_bit8 (N.lxor s (b2n b)).

(** [SCrc64::new], checksum.rs:64-68 *)
Definition crc_new : N := crc_ones.

(** [SCrc64::update], checksum.rs:69-71 *)
Definition crc_update (s : N) (l : bytes) : N := fold_left crc_byte l s.

(** [SCrc64::finish], checksum.rs:72-74 *)
Definition crc_finish (s : N) : N := N.lxor s crc_ones.

(** the checksum of one byte string: [new]; [update]; [finish], checksum.rs:63-75 *)
Definition crc64 (l : bytes) : N := crc_finish (crc_update crc_new l).
