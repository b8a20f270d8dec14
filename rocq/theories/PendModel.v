(** The limit on changes that wait for the disk. All paths are below /repo/server/src/. *)
From Coq Require Import NArith Bool.
Local Open Scope N_scope.

(** [FractalRTStat::init], engine/fractal/mgr.rs:134-143, run once at the start: [free]: what
    util/os/free_memory.rs:30-85 says (on Linux [freeram] of sysinfo, 0 if that fails; 0 on systems that
    are not Linux, Windows or macOS), [models]: number of models at the start, [size]: bytes of a
    [DataDelta] (core/model/delta.rs). Simplified: 0.02 is exactly 1/50 and the product is not rounded. *)
Definition limit (free models size : N) : N := free / 50 / N.max models 1 / size.

(** the decision of [request_batch_resolve_if_cache_full], engine/fractal/mod.rs:158-161: [hint]: the
    counter after the statement, [rows]: rows of the model *)
Definition asks (hint max rows : N) : bool :=
  let tolerated := max <=? hint in
  let percent := (rows / 100 * 5 <=? hint) && tolerated in
  tolerated || percent.
