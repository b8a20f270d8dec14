(** The two engines of sky-bench: workers that share a countdown of queries, and the main thread that gives
    out phases and collects figures. All paths are below /repo/sky-bench/src/. *)
From Coq Require Import List Arith NArith Bool.
Import ListNotations.
Open Scope N_scope.

(** [u128::MAX], runtime/rookie.rs:187, runtime/fury.rs:270 *)
Definition u128_max : N := 2 ^ 128 - 1.

(** Where a worker stands (runtime/rookie.rs:175-226, runtime/fury.rs:253-346). [PTarget], [PCas] are the two
    atomic accesses of the countdown (rookie.rs:97-117, fury.rs:53-69); their first argument is [Some ok] if
    the flag of failure was read before the countdown (first round of rookie, rookie.rs:182-183) and [None] if
    it is read after it (all other rounds, rookie.rs:211-212, fury.rs:265-266,323-324). *)
Inductive pc : Type :=
| PIdle                               (* waits for a task, rookie.rs:176, fury.rs:254 *)
| PQueued                             (* a task is in its channel, the start lock not yet taken: rookie.rs:180, fury.rs:263 *)
| PTarget (b : option bool)           (* loads the countdown *)
| PCas (b : option bool) (c : N)      (* loaded [c], tries to store [c - 1] *)
| POkay (pos : N)                     (* has position [pos], reads the flag *)
| PReady (pos : N)                    (* inside the loop, before the query is sent *)
| PFly (pos t0 : N)                   (* query of position [pos] sent at [t0] *)
| PPost                               (* answer bad: sets the flag, rookie.rs:199, fury.rs:283,298 *)
| PErr                                (* sends the error, rookie.rs:200, fury.rs:284-294,299-309 *)
| PSend                               (* loop left, nothing failed: sends its figures, rookie.rs:214-224, fury.rs:330-343 *)
| PDead.                              (* panicked *)

(** A worker: its place and its local figures (rookie.rs:184-188, fury.rs:267-271). The start is that of the first query answered
    well; rookie notes it just before sending the query (rookie.rs:192-194), fury when it is answered (fury.rs:312-314): the figures of a
    worker with a bad answer are thrown away, and the two instants of rookie are taken as one. *)
Record worker : Type := W { wpc : pc; wstart : option N; wel : N; whead : N; wtail : N }.

(** A message to the main thread ([WorkerResult], rookie.rs:152-156; [FuryResult], fury.rs:125). The number of
    the sender is not part of the message; it is carried along for statements only. *)
Inductive msg : Type := Res (i : nat) (start el head tail : N) | Err (i : nat).

(** The main thread: before a phase, waiting for results (those it received so far are named by their
    senders; the code only counts them), finished, failed. bench.rs:331-336,361-366. *)
Inductive mpc : Type := MNext | MWait (from : list nat) | MOk | MFail.

(** A query that was answered: phase, position (the key), worker, when sent, when answered, whether well. *)
Record entry : Type := E { e_ph : nat; e_pos : N; e_w : nat; e_t0 : N; e_t1 : N; e_ok : bool }.

(** Figures of a phase ([RuntimeStats], runtime.rs:45-50): number of queries and nanoseconds, whose quotient is the rate
    (runtime.rs:32-37, floating point not modelled), fastest and slowest query. *)
Record stat : Type := St { s_count : N; s_elapsed : N; s_head : N; s_tail : N }.

(** Everything. [todo] are the numbers of queries of the phases to come, [cur] that of the phase running. The
    last two are for statements only, except [stats], which is what is printed (bench.rs:167-186). *)
Record sys : Type := Sy {
  now : N; target : N; okay : bool; ws : nat -> worker; chan : list msg;
  main : mpc; todo : list N; cur : N; phase : nat;
  gstart : option N; gstop : option N; ghead : N; gtail : N;
  stats : list stat; log : list entry }.

(** helper of the model, without a counterpart in the code: one worker replaced *)
Definition upd (f : nat -> worker) (i : nat) (w : worker) : nat -> worker :=
  fun j => if Nat.eqb j i then w else f j.
(** same local figures, another place *)
Definition at_ (w : worker) (p : pc) : worker := W p (wstart w) (wel w) (whead w) (wtail w).
(** local figures at the start of a task, rookie.rs:184-188, fury.rs:267-271 *)
Definition fresh (p : pc) : worker := W p None 0 u128_max 0.

(** the test of the loop and what follows it: rookie.rs:190,214-225, fury.rs:272,326-343 *)
Definition test (pos : N) (ok : bool) : pc :=
  if negb (pos =? 0) && ok then PReady pos else if ok then PSend else PIdle.
(** a position was taken ([0]: none left) *)
Definition got (b : option bool) (pos : N) : pc :=
  match b with Some ok => test pos ok | None => POkay pos end.
(** the countdown was loaded: rookie.rs:98-102, fury.rs:54-58 *)
Definition loaded (b : option bool) (c : N) : pc := if c =? 0 then got b 0 else PCas b c.

(** helper of the model, without a counterpart in the code: looking at where the workers are *)
Definition is_idle (p : pc) : bool := match p with PIdle => true | _ => false end.
(** helper of the model, without a counterpart in the code: looking at where the workers are *)
Definition is_dead (p : pc) : bool := match p with PDead => true | _ => false end.
(** helper of the model, without a counterpart in the code: looking at where the workers are *)
Definition all_ws (n : nat) (f : nat -> worker) (t : pc -> bool) : bool := forallb (fun i => t (wpc (f i))) (seq 0 n).

(** the smallest and largest time so far, rookie.rs:187-210, 294-348, fury.rs:168-205, 270-322, with nothing before the first *)
Definition omin (o : option N) (x : N) : N := match o with None => x | Some y => if x <? y then x else y end.
(** the smallest and largest time so far, rookie.rs:187-210, 294-348, fury.rs:168-205, 270-322, with nothing before the first *)
Definition omax (o : option N) (x : N) : N := match o with None => x | Some y => if y <? x then x else y end.

(** What happens: time passes; worker [i] goes on (with a good or a bad answer, if it waits for one); the
    main thread goes on. *)
Inductive lab : Type := Tick (d : N) | WS (i : nat) (good : bool) | MS.

(** helper of the model, without a counterpart in the code: one field replaced *)
Definition setw (s : sys) (i : nat) (w : worker) : sys :=
  Sy (now s) (target s) (okay s) (upd (ws s) i w) (chan s) (main s) (todo s) (cur s) (phase s)
     (gstart s) (gstop s) (ghead s) (gtail s) (stats s) (log s).

(** a worker's step; [rookie] tells the engines apart *)
Definition wstep (rookie : bool) (s : sys) (i : nat) (good : bool) : option sys :=
  let w := ws s i in
  match wpc w with
  | PIdle | PDead => None
  | PQueued => Some (setw s i (fresh (PTarget (if rookie then Some (okay s) else None))))
  | PTarget b => Some (setw s i (at_ w (loaded b (target s))))
  | PCas b c =>
      if target s =? c then
        Some (Sy (now s) (c - 1) (okay s) (upd (ws s) i (at_ w (got b c))) (chan s) (main s) (todo s) (cur s) (phase s)
                 (gstart s) (gstop s) (ghead s) (gtail s) (stats s) (log s))
      else Some (setw s i (at_ w (loaded b (target s))))
  | POkay pos => Some (setw s i (at_ w (test pos (okay s))))
  | PReady pos => Some (setw s i (at_ w (PFly pos (now s))))
  | PFly pos t0 =>
      let e := now s - t0 in
      let w' := if good
                then W (PTarget None) (match wstart w with None => Some t0 | o => o end) (wel w + e)
                       (if e <? whead w then e else whead w) (if wtail w <? e then e else wtail w)
                else at_ w PPost in
      Some (Sy (now s) (target s) (okay s) (upd (ws s) i w') (chan s) (main s) (todo s) (cur s) (phase s)
               (gstart s) (gstop s) (ghead s) (gtail s) (stats s) (log s ++ [E (phase s) pos i t0 (now s) good]))
  | PPost => Some (Sy (now s) (target s) false (upd (ws s) i (at_ w PErr)) (chan s) (main s) (todo s) (cur s) (phase s)
                      (gstart s) (gstop s) (ghead s) (gtail s) (stats s) (log s))
  | PErr => Some (Sy (now s) (target s) (okay s) (upd (ws s) i (at_ w PIdle)) (chan s ++ [Err i]) (main s) (todo s) (cur s) (phase s)
                     (gstart s) (gstop s) (ghead s) (gtail s) (stats s) (log s))
  | PSend =>
      (* [local_start.unwrap()], rookie.rs:218, fury.rs:332 *)
      match wstart w with
      | None => Some (setw s i (at_ w PDead))
      | Some t => Some (Sy (now s) (target s) (okay s) (upd (ws s) i (at_ w PIdle)) (chan s ++ [Res i t (wel w) (whead w) (wtail w)])
                           (main s) (todo s) (cur s) (phase s)
                           (gstart s) (gstop s) (ghead s) (gtail s) (stats s) (log s))
      end
  end.

(** helper of the model, without a counterpart in the code: one field replaced *)
Definition setm (s : sys) (m : mpc) : sys :=
  Sy (now s) (target s) (okay s) (ws s) (chan s) m (todo s) (cur s) (phase s)
     (gstart s) (gstop s) (ghead s) (gtail s) (stats s) (log s).

(** the main thread: rookie.rs:285-364, bench.rs:331-336; fury.rs:155-219, bench.rs:361-366. With [n] workers. *)
Definition mstep (rookie : bool) (n : nat) (s : sys) : option sys :=
  match main s with
  | MOk | MFail => None
  | MNext =>
      match todo s with
      | [] => Some (setm s MOk)
      | c :: r =>
          (* the start lock is taken for writing: no worker is at work *)
          if all_ws n (ws s) (fun p => is_idle p || is_dead p) then
            if all_ws n (ws s) is_idle then
              Some (Sy (now s) c (okay s) (fun i => if Nat.ltb i n then at_ (ws s i) PQueued else ws s i) (chan s) (MWait []) r c (phase s)
                       None None u128_max 0 (stats s) (log s))
            else (* rookie: sending to a worker that is gone panics, rookie.rs:296-300; not reachable: [MNext] comes after all results *)
              Some (setm s MFail)
          else None
      end
  | MWait from =>
      match chan s with
      | [] => if all_ws n (ws s) is_dead then Some (setm s MFail) else None
      | Err _ :: q =>
          Some (Sy (now s) (target s) (okay s) (ws s) q MFail (todo s) (cur s) (phase s)
                   (gstart s) (gstop s) (ghead s) (gtail s) (stats s) (log s))
      | Res i t el h tl :: q =>
          let gs := omin (gstart s) t in
          let ge := omax (gstop s) (t + el) in
          let gh := if h <? ghead s then h else ghead s in
          let gt := if gtail s <? tl then tl else gtail s in
          if Nat.eqb (S (length from)) n then
            (* rookie: [post_reset], rookie.rs:92-96,352 *)
            Some (Sy (now s) (if rookie then 0 else target s) (if rookie then true else okay s) (ws s) q MNext (todo s) (cur s) (S (phase s))
                     (Some gs) (Some ge) gh gt (stats s ++ [St (cur s) (ge - gs) gh gt]) (log s))
          else
            Some (Sy (now s) (target s) (okay s) (ws s) q (MWait (from ++ [i])) (todo s) (cur s) (phase s)
                     (Some gs) (Some ge) gh gt (stats s) (log s))
      end
  end.

(** one step of anybody, as above *)
Definition step (rookie : bool) (n : nat) (s : sys) (l : lab) : option sys :=
  match l with
  | Tick d => Some (Sy (now s + d) (target s) (okay s) (ws s) (chan s) (main s) (todo s) (cur s) (phase s)
                       (gstart s) (gstop s) (ghead s) (gtail s) (stats s) (log s))
  | WS i good => if Nat.ltb i n then wstep rookie s i good else None
  | MS => mstep rookie n s
  end.

(** steps one after the other, as chosen by the scheduler *)
Fixpoint run (rookie : bool) (n : nat) (s : sys) (ls : list lab) : option sys :=
  match ls with
  | [] => Some s
  | l :: r => match step rookie n s l with Some s' => run rookie n s' r | None => None end
  end.

(** all workers connected, nothing done yet: rookie.rs:269-283, fury.rs:130-154; the phases of a benchmark of
    [c] rows are [repeat c 4] (bench.rs:251-301) *)
Definition init (t : N) (counts : list N) : sys :=
  Sy t 0 true (fun _ => fresh PIdle) [] MNext counts 0 0%nat None None u128_max 0 [] [].

(** ---- [bench::run], bench.rs:116-155 ---- *)
(** What the server has: the spaces, each with its models. *)
Definition db := list (nat * list nat).
(** CREATE SPACE, CREATE MODEL and DROP SPACE on what the server has, as far as bench.rs:120-160 needs them *)
Fixpoint has (d : db) (x : nat) : bool := match d with [] => false | (y, _) :: r => Nat.eqb y x || has r x end.
(** CREATE SPACE, CREATE MODEL and DROP SPACE on what the server has, as far as bench.rs:120-160 needs them *)
Fixpoint add_model (d : db) (x m : nat) : db :=
  match d with [] => [] | (y, ms) :: r => if Nat.eqb y x then (y, ms ++ [m]) :: r else (y, ms) :: add_model r x m end.
(** CREATE SPACE, CREATE MODEL and DROP SPACE on what the server has, as far as bench.rs:120-160 needs them *)
Fixpoint drop_space (d : db) (x : nat) : db :=
  match d with [] => [] | (y, ms) :: r => if Nat.eqb y x then r else (y, ms) :: drop_space r x end.
(** [bench] as name of the space and of the model, bench.rs:41-42 *)
Definition BENCH : nat := 7.

(** What goes wrong: the connection, a statement, the benchmark itself, the cleaning up. *)
Record faults : Type := Fl { f_connect : bool; f_space : bool; f_model : bool; f_bench : bool; f_clean : bool }.
(** how the benchmark ends for its caller, bench.rs:105-160 *)
Inductive bres : Type := BOk | BErr.

(** [cleanup], bench.rs:161-165: [DROP SPACE ALLOW NOT EMPTY bench] *)
Definition cleanup (f : faults) (d : db) : db * bool :=
  if f_clean f then (d, false) else if has d BENCH then (drop_space d BENCH, true) else (d, false).
(** [run], bench.rs:116-155; the queries of the benchmark change only rows of [bench.bench], not modelled here *)
Definition bench_run (f : faults) (d : db) : db * bres :=
  if f_connect f then (d, BErr)
  else if f_space f || has d BENCH then (d, BErr)
  else
    let d1 := d ++ [(BENCH, [])] in
    if f_model f then (d1, BErr)
    else
      let d2 := add_model d1 BENCH BENCH in
      if f_bench f then (fst (cleanup f d2), BErr)
      else match cleanup f d2 with (d3, true) => (d3, BOk) | (d3, false) => (d3, BErr) end.
