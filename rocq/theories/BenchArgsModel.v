(** The benchmark's command line (/repo/sky-bench/src/args.rs:27-237) on the argument reader of [ArgsModel], and the keys of its rows
    (/repo/sky-bench/src/bench.rs:199-213). Strings are their UTF-8 bytes; numbers are those of a machine with 64-bit [usize]. *)
From Coq Require Import Strings.String.
From Coq Require Import List NArith Bool Init.Byte.
From Verif Require Import Bytes ConfigModel ArgsModel NumModel.
Import ListNotations.
Local Open Scope string_scope.
Local Open Scope list_scope.
Local Open Scope N_scope.

(** args.rs:47-51 *)
Inductive bengine := Rookie | Fury.
(** args.rs:53-63 *)
Record bcfg := mk_bcfg { b_host : bytes; b_port : N; b_pass : bytes; b_threads : N; b_key : N; b_rows : N; b_engine : bengine; b_conns : N }.
(** args.rs:41-45; the texts of help and version (92-93) are not modelled *)
Inductive btask := BHelp | BVersion | BRun (c : bcfg).
(** what can go wrong: 90; 116-118 and 123-125; 129-131; 134-136; 150-152; 163-165; 175-177; 185; 197-199; 207-209; 214-216; 234 *)
Inductive berr := BArgs (a : action) | BForm | BPort | BProto | BPass | BThreads | BRows | BKey | BEngine | BRookie | BConns | BUnknown.

Section Parse.
(** [(n as f64).log10().floor()] of a number other than 0 (args.rs:102); the environment variable SKYDB_PASSWORD (146; [None] if it is missing or
    not UTF-8); [num_cpus::get()] (159, 204) *)
Variable flog : N -> N.
Variable env_password : option bytes.
Variable cpus : N.

(** args.rs:98-104 *)
Definition cdig (n : N) : N := if n =? 0 then 1 else flog n + 1.
(** args.rs:112-141 *)
Definition b_endpoint (v : option bytes) : (bytes * N) + berr :=
  match v with
  | None => inl (bstr "127.0.0.1", 2003)
  | Some ep =>
      match split_on x40 ep with
      | [pr; hp] =>
          match split_on x3a hp with
          | [host; port] =>
              match parse_uint u16_max port with
              | None => inr BPort
              | Some port => if beqb pr (bstr "tcp") then inl (host, port) else inr BProto
              end
          | _ => inr BForm
          end
      | _ => inr BForm
      end
  end.
(** args.rs:143-156 *)
Definition b_password (v : option bytes) : bytes + berr :=
  match v with Some p => inl p | None => match env_password with Some p => inl p | None => inr BPass end end.
(** a number other than 0: args.rs:158-168 (threads), 170-180 (rows); [e] is the complaint and [d] the value when it is not named *)
Definition b_count (d : N) (e : berr) (v : option bytes) : N + berr :=
  match v with
  | None => inl d
  | Some t => match parse_uint u64_max t with Some n => if n =? 0 then inr e else inl n | None => inr e end
  end.
(** args.rs:181-188 *)
Definition b_keysize (need : N) (v : option bytes) : N + berr :=
  match v with
  | None => inl need
  | Some t => match parse_uint u64_max t with Some s => if need <=? s then inl s else inr BKey | None => inr BKey end
  end.
(** args.rs:189-202 *)
Definition b_eng (v : option bytes) : bengine + berr :=
  match v with
  | None => inl Fury
  | Some t => if beqb t (bstr "rookie") then inl Rookie else if beqb t (bstr "fury") then inl Fury else inr BEngine
  end.
(** args.rs:203-219 *)
Definition b_connections (en : bengine) (v : option bytes) : N + berr :=
  match v with
  | None => inl (cpus * 8)
  | Some t =>
      match parse_uint u64_max t with
      | Some n => if n =? 0 then inr BConns else match en with Rookie => inr BRookie | Fury => inl n end
      | None => inr BConns
      end
  end.
(** the operator [?] and the early returns *)
Definition bbind {A B : Type} (x : A + berr) (f : A -> B + berr) : B + berr := match x with inl a => f a | inr e => inr e end.
(** args.rs:112-236: each option is taken out of the map, in this order *)
Definition bconfig (m : argmap) : bcfg + berr :=
  bbind (b_endpoint (lookup (bstr "--endpoint") m)) (fun hp =>
  let m := remove (bstr "--endpoint") m in
  bbind (b_password (lookup (bstr "--password") m)) (fun pass =>
  let m := remove (bstr "--password") m in
  bbind (b_count cpus BThreads (lookup (bstr "--threads") m)) (fun threads =>
  let m := remove (bstr "--threads") m in
  bbind (b_count 1000000 BRows (lookup (bstr "--rowcount") m)) (fun rows =>
  let m := remove (bstr "--rowcount") m in
  bbind (b_keysize (cdig rows) (lookup (bstr "--keysize") m)) (fun key =>
  let m := remove (bstr "--keysize") m in
  bbind (b_eng (lookup (bstr "--engine") m)) (fun en =>
  let m := remove (bstr "--engine") m in
  bbind (b_connections en (lookup (bstr "--connections") m)) (fun conns =>
  match remove (bstr "--connections") m with
  | [] => inl (mk_bcfg (fst hp) (snd hp) pass threads key rows en conns)
  | _ => inr BUnknown
  end))))))).
(** args.rs:106-237 with [load_env] (89-96) in it *)
Definition bparse (argv : list bytes) : btask + berr :=
  match parse_args_deny_duplicate argv with
  | AcHelp => inl BHelp
  | AcVersion => inl BVersion
  | AcArgs m => bbind (bconfig m) (fun c => inl (BRun c))
  | a => inr (BArgs a)
  end.
End Parse.

(** [fmt_pk], bench.rs:211-213: the decimal text, with zeros on the left up to the width. A width that the formatter of the standard library or the
    memory cannot take is not modelled. *)
Definition fmt_pk (width current : N) : bytes :=
  let t := dec_u64 current in repeat x30 (N.to_nat width - List.length t) ++ t.
(** The keys of a task, bench.rs:254-299: positions are 1 to [query_count], counted down (runtime/rookie.rs:97-117, runtime/fury.rs:53-69; C105). *)
Definition bkey (c : bcfg) (i : N) : bytes := fmt_pk (b_key c) i.
