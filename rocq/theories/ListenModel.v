(** The two listeners and the connections they hand over (/repo/server/src/engine/net/mod.rs:53-89, 198-293; both run side by side,
    engine/mod.rs:101-103). Simplified: the kernel's backlog is a queue without a bound; what a handler does is only that it ends at some time. *)
From Coq Require Import List NArith Bool.
Import ListNotations.
Local Open Scope N_scope.

(** net/mod.rs:55 *)
Definition CLIMIT : N := 50000.
(** net/mod.rs:77 *)
Definition BACKOFF_MAX : N := 64.
(** net/mod.rs:79 *)
Definition backoff0 : N := 1.
(** net/mod.rs:86-88 *)
Definition should_disconnect (at_ : N) : bool := BACKOFF_MAX <=? at_.
(** net/mod.rs:81-85: how long it sleeps, and the next value (a [u8]: the upper bit of a shift is lost) *)
Definition spin (at_ : N) : N * N := (at_, (at_ * 2) mod 256).

(** net/mod.rs:198-212: the calls of [accept] answer as in the list ([true]: a connection). [Some (true, t)]: accepted after sleeping [t] seconds,
    [Some (false, t)]: given up; [None]: the list is too short, it still tries. *)
Fixpoint accept_loop (at_ t : N) (rs : list bool) : option (bool * N) :=
  match rs with
  | [] => None
  | true :: _ => Some (true, t)
  | false :: r => if should_disconnect at_ then Some (false, t) else accept_loop (snd (spin at_)) (t + fst (spin at_)) r
  end.

(** [listen_tcp] (213-241): before 216; in the [accept] of 217 (permit taken); sleeping in it *)
Inductive tst := TTop | TAcc (at_ : N) | TSleep (at_ : N).
(** [listen_tls] (262-293): in the [accept] of 265; sleeping in it; in the handshake of 268 with a client *)
Inductive sst := SAcc (at_ : N) | SSleep (at_ : N) | SShake (c : N).
(** [permits] of CLIM (57); [tq], [sq]: clients that have connected and are not accepted yet; [conns]: spawned handlers (233, 287) *)
Record net := mk_net { permits : N; tcp : tst; tls : sst; tq : list N; sq : list N; conns : list N }.
(** the start: 57, 213, 262 *)
Definition net0 : net := mk_net CLIMIT TTop (SAcc backoff0) [] [] [].

(** What happens: a client connects to one of the ports (198-201); [listen_tcp]: permit (216), accept answers (201), sleep over (210); the same for
    [listen_tls]; a handshake ends well or not (268); a handler ends (233-237, 287-291) *)
Inductive lab := ArrT (c : N) | ArrS (c : N) | TPermit | TOk | TErr | TWake | SOk | SErr | SWake | SDone (c : N) (ok : bool) | End (c : N).

(** a handler that is over (233-237): the first of this client *)
Fixpoint remove1 (c : N) (l : list N) : list N := match l with [] => [] | x :: r => if x =? c then r else x :: remove1 c r end.

(** net/mod.rs:213-241 and 262-293; [None]: not possible now *)
Definition step (s : net) (l : lab) : option net :=
  match l with
  | ArrT c => Some (mk_net (permits s) (tcp s) (tls s) (tq s ++ [c]) (sq s) (conns s))
  | ArrS c => Some (mk_net (permits s) (tcp s) (tls s) (tq s) (sq s ++ [c]) (conns s))
  (* 216 *)
  | TPermit =>
      match tcp s with
      | TTop => if permits s =? 0 then None else Some (mk_net (permits s - 1) (TAcc backoff0) (tls s) (tq s) (sq s) (conns s))
      | _ => None
      end
  (* 202, 227-239: spawn, then the permit is returned *)
  | TOk =>
      match tcp s, tq s with
      | TAcc _, c :: q => Some (mk_net (permits s + 1) TTop (tls s) q (sq s) (conns s ++ [c]))
      | _, _ => None
      end
  (* 203-210; 219-224: [continue] drops the permit *)
  | TErr =>
      match tcp s with
      | TAcc a => if should_disconnect a then Some (mk_net (permits s + 1) TTop (tls s) (tq s) (sq s) (conns s))
                  else Some (mk_net (permits s) (TSleep (snd (spin a))) (tls s) (tq s) (sq s) (conns s))
      | _ => None
      end
  | TWake =>
      match tcp s with
      | TSleep a => Some (mk_net (permits s) (TAcc a) (tls s) (tq s) (sq s) (conns s))
      | _ => None
      end
  (* 265: no permit here *)
  | SOk =>
      match tls s, sq s with
      | SAcc _, c :: q => Some (mk_net (permits s) (tcp s) (SShake c) (tq s) q (conns s))
      | _, _ => None
      end
  | SErr =>
      match tls s with
      | SAcc a => Some (mk_net (permits s) (tcp s) (if should_disconnect a then SAcc backoff0 else SSleep (snd (spin a))) (tq s) (sq s) (conns s))
      | _ => None
      end
  | SWake =>
      match tls s with
      | SSleep a => Some (mk_net (permits s) (tcp s) (SAcc a) (tq s) (sq s) (conns s))
      | _ => None
      end
  (* 268-291: awaited in the loop itself; a failed one is only logged *)
  | SDone c ok =>
      match tls s with
      | SShake d => if d =? c then Some (mk_net (permits s) (tcp s) (SAcc backoff0) (tq s) (sq s) (if ok then conns s ++ [c] else conns s)) else None
      | _ => None
      end
  | End c => if existsb (N.eqb c) (conns s) then Some (mk_net (permits s) (tcp s) (tls s) (tq s) (sq s) (remove1 c (conns s))) else None
  end.
(** any interleaving of clients and listeners (engine/mod.rs:101-103) *)
Fixpoint run (s : net) (ls : list lab) : option net :=
  match ls with [] => Some s | l :: r => match step s l with Some s' => run s' r | None => None end end.
