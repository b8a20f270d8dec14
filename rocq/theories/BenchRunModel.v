(** The queries of the benchmark (/repo/sky-bench/src/bench.rs). Texts and parameters only: the client library that sends them (crate [skytable]) is not in the
    repository; its parameters are taken as [pval] (a [u64] is an unsigned integer, a [Vec<u8>] is binary). *)
From Coq Require Import Strings.String.
From Coq Require Import List NArith Bool.
From Verif Require Import Bytes AMap DataModel CodecModel RowModel LexModel LexSpec ConcModel.
Import ListNotations.
Local Open Scope string_scope.
Local Open Scope list_scope.

(** bench.rs:41-42 *)
Definition bench_id : bytes * bytes := (bstr "bench", bstr "bench").
(** the queries of the main thread, bench.rs:125-128, and of a worker when it starts, bench.rs:91, runtime/fury.rs:240 *)
Definition q_space : bytes := bstr "create space bench".
(** bench.rs:127-128 *)
Definition q_model : bytes := bstr "create model bench.bench(un: binary, pw: uint8)".
(** bench.rs:91, runtime/fury.rs:240 *)
Definition q_use : bytes := bstr "use bench".

(** The four phases in their order, bench.rs:251-301 *)
Inductive bphase := PhInsert | PhSelect | PhUpdate | PhDelete.
(** the query of a phase for a key: text and parameters. bench.rs:257, 266, 280-286, 295 *)
Definition bquery (p : bphase) (key : bytes) : bytes * list pval :=
  match p with
  | PhInsert => (bstr "insert into bench(?, ?)", [PBin key; PUInt 0])
  | PhSelect => (bstr "select * from bench where un = ?", [PBin key])
  | PhUpdate => (bstr "update bench set pw += ? where un = ?", [PUInt 1; PBin key])
  | PhDelete => (bstr "delete from bench where un = ?", [PBin key])
  end.
