(** The number of queries in the last message of the benchmark (/repo/sky-bench/src/bench.rs). Characters of a decimal text are bytes. *)
From Coq Require Import List Arith NArith Bool Init.Byte.
From Verif Require Import Bytes NumModel BenchRunModel.
Import ListNotations.

(** the loop of [fmt_u64], bench.rs:307-312: [i] is the index of the first character of [chars] *)
Fixpoint fmt_loop (i : nat) (chars : bytes) : bytes :=
  match chars with
  | [] => []
  | ch :: r => (if (i mod 3 =? 0) && negb (i =? 0) then [x2c] else []) ++ ch :: fmt_loop (S i) r
  end.
(** bench.rs:303-314; [n.to_string()] is the decimal text *)
Definition fmt_u64 (n : N) : bytes := rev (fmt_loop 0 (rev (dec_u64 n))).
(** the tasks of [prepare_bench_spec], bench.rs:251-301, each with [query_count] queries *)
Definition btasks (rows : N) : list N := map (fun _ : bphase => rows) [PhInsert; PhSelect; PhUpdate; PhDelete].
(** bench.rs:329, 359, in a release build (/repo/Cargo.toml:5-9 does not ask for overflow checks) *)
Definition btotal (rows : N) : N := ((rows * N.of_nat (length (btasks rows))) mod 2 ^ 64)%N.
(** the number shown, bench.rs:146-149 *)
Definition breport (rows : N) : bytes := fmt_u64 (btotal rows).
