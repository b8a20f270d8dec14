(** Data statements of one model that run at the same time. One step is one access to what the statements
    share: the number counter, the index (whose operations are linearizable, C65), the lock of a row, the queue of
    changes (C40). Paths are below /repo/server/src/engine/. ALTER MODEL excludes data statements
    (core/mod.rs:135-139, 174-199) and has no part here. *)
From Coq Require Import List NArith Bool Arith.
From Verif Require Import DataModel CodecModel RowModel.
Import ListNotations.
Local Open Scope nat_scope.

Section Conc.
(** the fields of a row, and the assignments of an UPDATE with what they make of a row and whether the
    statement succeeds; a refused UPDATE may leave changes behind (C20). Rows and UPDATEs of the server: [RowModel.update_row]. *)
Variables V F : Type.
Variable app : F -> V -> V * bool.
(** the order in which the index is gone through (C39) *)
Variable ord : list nat -> list nat.

(** statements whose parts are found valid before the shared state is touched (dml/ins.rs:52, dml/upd.rs:263,
    dml/del.rs:54) *)
Inductive cstmt := CIns (k : pkey) (x : V) | CUpd (k : pkey) (f : F) | CDel (k : pkey) | CSel (k : pkey) | CAll.
(** the answers: success, UPDATE refused, row exists, no such row, a row, all rows (SELECT ALL with a limit that
    is large enough) *)
Inductive cans := CAok | CArefused | CAdup | CAnone | CArow (x : V) | CArows (l : list (pkey * V)).

(** [Row] and [RowData], core/index/row.rs:46-57: key, fields, [txn_revised_data], whether a writer holds the
    lock. [ob_gone]: the task that took it out of the index (only records). *)
Record obj := mk_obj { ob_key : pkey; ob_val : V; ob_rev : N; ob_lock : bool; ob_gone : option nat }.

(** where a statement is: nothing done; INSERT: number taken (ins.rs:57), row in the index (59); UPDATE: row
    fetched (upd.rs:266), locked (270), number taken (273), row changed and number set (282-366); DELETE: number
    taken (del.rs:50), row out of the index (51-54); SELECT: row fetched (sel.rs:199); SELECT ALL: the latch of the index is held,
    rows to come and rows read (sel.rs:218-270); answered, with the answer and the moment *)
Inductive cpc := PNew | PInsNum (v : N) | PInsQ (o : nat) (v : N)
| PUpdRow (o : nat) | PUpdLock (o : nat) | PUpdNum (o : nat) (v : N) | PUpdQ (o : nat) (v : N)
| PDelNum (v : N) | PDelQ (o : nat) (v : N) | PSelRow (o : nat) | PScan (rest : list nat) (acc : list (pkey * V)) | PDone (a : cans) (t : nat).

(** a statement, the moment it began (only records), where it is *)
Record ctask := mk_ct { ct_st : cstmt; ct_inv : nat; ct_pc : cpc }.

(** [DataDelta], core/model/delta.rs:206-230 *)
Record cdelta := mk_cd { cd_kind : dkind; cd_ver : N; cd_obj : nat }.
(** an event of a batch, storage/v2/impls/mdl_journal.rs:382-398 *)
Record cev := mk_cev { ce_kind : dkind; ce_ver : N; ce_key : pkey; ce_val : option V }.

(** rows ever made, the index, [data_current_version], [data_deltas] (delta.rs:42-50), the events of the batch
    being written, the batches of the file, the statements, the number of steps so far *)
Record cst := mk_cst { c_objs : list obj; c_idx : pkey -> option nat; c_ver : N; c_queue : list cdelta;
  c_open : list cev; c_file : list (list cev); c_tasks : list ctask; c_now : nat }.

(** helpers of the model: replacing an element, a new answer in the index *)
Definition rep {A} (l : list A) (i : nat) (x : A) : list A := firstn i l ++ x :: skipn (S i) l.
(** helper of the model, without a counterpart in the code: the index changed at one key *)
Definition kset {A} (f : pkey -> A) (k : pkey) (x : A) : pkey -> A := fun j => if pkey_eqb j k then x else f j.

(** the state with the task [i] at [pc] *)
Definition go (c : cst) (i : nat) (t : ctask) (pc : cpc) : cst :=
  mk_cst (c_objs c) (c_idx c) (c_ver c) (c_queue c) (c_open c) (c_file c) (rep (c_tasks c) i (mk_ct (ct_st t) (ct_inv t) pc)) (S (c_now c)).
(** [create_new_data_delta_version], delta.rs:100-102, 106-108 *)
Definition numbered (c : cst) : cst :=
  mk_cst (c_objs c) (c_idx c) (c_ver c + 1)%N (c_queue c) (c_open c) (c_file c) (c_tasks c) (c_now c).
(** [append_new_data_delta_with], delta.rs:86-98 (the counter is in ShutModel.v) *)
Definition queued (c : cst) (d : cdelta) : cst :=
  mk_cst (c_objs c) (c_idx c) (c_ver c) (c_queue c ++ [d]) (c_open c) (c_file c) (c_tasks c) (c_now c).
(** index and rows replaced *)
Definition with_idx (c : cst) (f : pkey -> option nat) : cst :=
  mk_cst (c_objs c) f (c_ver c) (c_queue c) (c_open c) (c_file c) (c_tasks c) (c_now c).
(** helper of the model, without a counterpart in the code: rows replaced *)
Definition with_objs (c : cst) (l : list obj) : cst :=
  mk_cst l (c_idx c) (c_ver c) (c_queue c) (c_open c) (c_file c) (c_tasks c) (c_now c).
(** taking and giving back the lock of a row, core/index/row.rs (parking_lot) *)
Definition relock (b : bool) (o : obj) : obj := mk_obj (ob_key o) (ob_val o) (ob_rev o) b (ob_gone o).

(** the latch of the index, core/index/mod.rs:55-60, 79-98: INSERT and DELETE hold it together (ins.rs:53, del.rs:48), a SELECT
    ALL alone; UPDATE and SELECT do not take it *)
Definition shares (t : ctask) : bool := match ct_pc t with PInsNum _ | PInsQ _ _ | PDelNum _ | PDelQ _ _ => true | _ => false end.
(** somebody holds the latch for a SELECT ALL, core/index/mod.rs:79-98 *)
Definition scans (t : ctask) : bool := match ct_pc t with PScan _ _ => true | _ => false end.
(** somebody holds the latch for a SELECT ALL, core/index/mod.rs:79-98 *)
Definition scanning (c : cst) : bool := existsb scans (c_tasks c).
(** somebody holds the latch together with others, ins.rs:53, del.rs:48 *)
Definition latched (c : cst) : bool := existsb (fun t => shares t || scans t) (c_tasks c).
(** the rows in the index *)
Definition is_live (c : cst) (o : nat) : bool :=
  match nth_error (c_objs c) o with Some b => match c_idx c (ob_key b) with Some j => Nat.eqb j o | None => false end | None => false end.
(** what a scan finds: idx/mtchm iteration in some order [ord] *)
Definition live (c : cst) : list nat := ord (filter (is_live c) (seq 0 (length (c_objs c)))).

(** the next step of a statement; [None]: it has to wait, or has ended *)
Definition step_task (c : cst) (i : nat) (t : ctask) : option cst :=
  match ct_st t, ct_pc t with
  (* dml/ins.rs:50-68 *)
  | CIns _ _, PNew => if scanning c then None else Some (go (numbered c) i t (PInsNum (c_ver c)))
  | CIns k x, PInsNum v =>
      match c_idx c k with
      | Some _ => Some (go c i t (PDone CAdup (c_now c)))
      | None => Some (go (with_idx (with_objs c (c_objs c ++ [mk_obj k x v false None])) (kset (c_idx c) k (Some (length (c_objs c))))) i t (PInsQ (length (c_objs c)) v))
      end
  | CIns _ _, PInsQ o v => Some (go (queued c (mk_cd DkInsert v o)) i t (PDone CAok (c_now c)))
  (* dml/upd.rs:260-372; the lock is held up to the end of the closure *)
  | CUpd k _, PNew =>
      match c_idx c k with None => Some (go c i t (PDone CAnone (c_now c))) | Some o => Some (go c i t (PUpdRow o)) end
  | CUpd _ _, PUpdRow o =>
      match nth_error (c_objs c) o with
      | Some b => if ob_lock b then None else Some (go (with_objs c (rep (c_objs c) o (relock true b))) i t (PUpdLock o))
      | None => None
      end
  | CUpd _ _, PUpdLock o => Some (go (numbered c) i t (PUpdNum o (c_ver c)))
  | CUpd _ f, PUpdNum o v =>
      match nth_error (c_objs c) o with
      | Some b =>
          let '(y, ok) := app f (ob_val b) in
          if ok then Some (go (with_objs c (rep (c_objs c) o (mk_obj (ob_key b) y v (ob_lock b) (ob_gone b)))) i t (PUpdQ o v))
          else Some (go (with_objs c (rep (c_objs c) o (mk_obj (ob_key b) y (ob_rev b) false (ob_gone b)))) i t (PDone CArefused (c_now c)))
      | None => None
      end
  | CUpd _ _, PUpdQ o v =>
      match nth_error (c_objs c) o with
      | Some b => Some (go (queued (with_objs c (rep (c_objs c) o (relock false b))) (mk_cd DkUpdate v o)) i t (PDone CAok (c_now c)))
      | None => None
      end
  (* dml/del.rs:44-70 *)
  | CDel _, PNew => if scanning c then None else Some (go (numbered c) i t (PDelNum (c_ver c)))
  | CDel k, PDelNum v =>
      match c_idx c k with
      | None => Some (go c i t (PDone CAnone (c_now c)))
      | Some o =>
          match nth_error (c_objs c) o with
          | Some b => Some (go (with_idx (with_objs c (rep (c_objs c) o (mk_obj (ob_key b) (ob_val b) (ob_rev b) (ob_lock b) (Some i)))) (kset (c_idx c) k None)) i t (PDelQ o v))
          | None => None
          end
      end
  | CDel _, PDelQ o v => Some (go (queued c (mk_cd DkDelete v o)) i t (PDone CAok (c_now c)))
  (* dml/sel.rs: [select_custom]; core/index/row.rs:142-186: the row is read under its lock *)
  | CSel k, PNew =>
      match c_idx c k with None => Some (go c i t (PDone CAnone (c_now c))) | Some o => Some (go c i t (PSelRow o)) end
  | CSel _, PSelRow o =>
      match nth_error (c_objs c) o with
      | Some b => if ob_lock b then None else Some (go c i t (PDone (CArow (ob_val b)) (c_now c)))
      | None => None
      end
  (* dml/sel.rs:71-117, 218-270: each row is read under its lock *)
  | CAll, PNew => if latched c then None else Some (go c i t (PScan (live c) []))
  | CAll, PScan [] acc => Some (go c i t (PDone (CArows acc) (c_now c)))
  | CAll, PScan (o :: rest) acc =>
      match nth_error (c_objs c) o with
      | Some b => if ob_lock b then None else Some (go c i t (PScan rest (acc ++ [(ob_key b, ob_val b)])))
      | None => None
      end
  | _, _ => None
  end.

(** what the flush makes of a change, mdl_journal.rs:262-290: nothing if the row has a newer number *)
Definition ev_of (objs : list obj) (d : cdelta) : list cev :=
  match nth_error objs (cd_obj d) with
  | None => []
  | Some b =>
      match cd_kind d with
      | DkDelete => [mk_cev DkDelete (cd_ver d) (ob_key b) None]
      | k => if N.ltb (cd_ver d) (ob_rev b) then [] else [mk_cev k (cd_ver d) (ob_key b) (Some (ob_val b))]
      end
  end.
(** it waits for the row's lock unless the change is a deletion *)
Definition blocked (objs : list obj) (d : cdelta) : bool :=
  match cd_kind d, nth_error objs (cd_obj d) with DkDelete, _ => false | _, Some b => ob_lock b | _, None => false end.

(** who goes next: a new statement, the [i]-th statement, the flush with the oldest change, the end of a batch
    (fractal/mgr.rs:521-560; how many changes go into a batch is left open) *)
Inductive clab := LStart (s : cstmt) | LGo (i : nat) | LFlush | LEnd.
(** one step of anybody, by the definitions above *)
Definition cstep (c : cst) (l : clab) : option cst :=
  match l with
  | LStart s => Some (mk_cst (c_objs c) (c_idx c) (c_ver c) (c_queue c) (c_open c) (c_file c) (c_tasks c ++ [mk_ct s (c_now c) PNew]) (S (c_now c)))
  | LGo i => match nth_error (c_tasks c) i with Some t => step_task c i t | None => None end
  | LFlush =>
      match c_queue c with
      | [] => None
      | d :: q => if blocked (c_objs c) d then None
                  else Some (mk_cst (c_objs c) (c_idx c) (c_ver c) q (c_open c ++ ev_of (c_objs c) d) (c_file c) (c_tasks c) (S (c_now c)))
      end
  | LEnd => Some (mk_cst (c_objs c) (c_idx c) (c_ver c) (c_queue c) [] (c_file c ++ [c_open c]) (c_tasks c) (S (c_now c)))
  end.
(** steps one after the other, as chosen by the scheduler *)
Fixpoint crun (c : cst) (ls : list clab) : option cst :=
  match ls with [] => Some c | l :: ls' => match cstep c l with Some c' => crun c' ls' | None => None end end.

(** a model that was just made, core/model/mod.rs *)
Definition cst0 : cst := mk_cst [] (fun _ => None) 0 [] [] [] [] 0.

(** ** The loader: [finish], mdl_journal.rs:502-613 (BatchModel.v has it with cells and columns) *)
Definition ltab : Type := pkey -> option (V * N).
(** mdl_journal.rs:517-561; [None]: the assertion of 526-531 *)
Definition l_put (t : ltab) (e : cev) : option ltab :=
  match ce_val e with
  | None => None
  | Some x =>
      match t (ce_key e) with
      | Some (_, r) => if (N.eqb r 0 || N.ltb r (ce_ver e))%bool then Some (kset t (ce_key e) (Some (x, ce_ver e))) else None
      | None => Some (kset t (ce_key e) (Some (x, ce_ver e)))
      end
  end.
(** 562-585 *)
Definition l_del (p : pkey -> option N) (e : cev) : pkey -> option N :=
  match p (ce_key e) with
  | Some d => if N.ltb (ce_ver e) d then p else kset p (ce_key e) (Some (ce_ver e))
  | None => kset p (ce_key e) (Some (ce_ver e))
  end.
(** 515-587 *)
Fixpoint l_loop (t : ltab) (p : pkey -> option N) (es : list cev) : option (ltab * (pkey -> option N)) :=
  match es with
  | [] => Some (t, p)
  | e :: es' => match ce_kind e with
                | DkDelete => l_loop t (l_del p e) es'
                | _ => match l_put t e with Some t' => l_loop t' p es' | None => None end
                end
  end.
(** 588-608 *)
Definition l_end (t : ltab) (p : pkey -> option N) : ltab := fun k =>
  match t k, p k with
  | Some (x, r), Some d => if N.ltb d r then Some (x, r) else None
  | a, _ => a
  end.
(** all batches of a file, mdl_journal.rs:461-608 *)
Fixpoint l_file (t : ltab) (bs : list (list cev)) : option ltab :=
  match bs with
  | [] => Some t
  | b :: bs' => match l_loop t (fun _ => None) b with Some (t', p) => l_file (l_end t' p) bs' | None => None end
  end.
(** the start of the server: the rows that the file brings back *)
Definition l_start (bs : list (list cev)) : option ltab := l_file (fun _ => None) bs.
End Conc.

Arguments CIns {V F}. Arguments CUpd {V F}. Arguments CDel {V F}. Arguments CSel {V F}. Arguments CAll {V F}.
Arguments CAok {V}. Arguments CArefused {V}. Arguments CAdup {V}. Arguments CAnone {V}. Arguments CArow {V}. Arguments CArows {V}.
Arguments LStart {V F}. Arguments LGo {V F}. Arguments LFlush {V F}. Arguments LEnd {V F}.
Arguments mk_obj {V}. Arguments ob_key {V}. Arguments ob_val {V}. Arguments ob_rev {V}. Arguments ob_lock {V}. Arguments ob_gone {V}.
Arguments PNew {V}. Arguments PInsNum {V}. Arguments PInsQ {V}. Arguments PUpdRow {V}. Arguments PUpdLock {V}. Arguments PUpdNum {V}. Arguments PUpdQ {V}.
Arguments PDelNum {V}. Arguments PDelQ {V}. Arguments PSelRow {V}. Arguments PScan {V}. Arguments PDone {V}.
Arguments mk_ct {V F}. Arguments ct_st {V F}. Arguments ct_inv {V F}. Arguments ct_pc {V F}.
Arguments mk_cev {V}. Arguments ce_kind {V}. Arguments ce_ver {V}. Arguments ce_key {V}. Arguments ce_val {V}.
Arguments mk_cst {V F}. Arguments c_objs {V F}. Arguments c_idx {V F}. Arguments c_ver {V F}. Arguments c_queue {V F}. Arguments c_open {V F}. Arguments c_file {V F}.
Arguments c_tasks {V F}. Arguments c_now {V F}. Arguments cst0 {V F}. Arguments go {V F}. Arguments numbered {V F}. Arguments queued {V F}. Arguments with_idx {V F}.
Arguments with_objs {V F}. Arguments relock {V}. Arguments shares {V F}. Arguments scans {V F}. Arguments scanning {V F}. Arguments latched {V F}. Arguments is_live {V F}.
Arguments live {V F}. Arguments step_task {V F}. Arguments ev_of {V}. Arguments blocked {V}. Arguments cstep {V F}. Arguments crun {V F}.
Arguments l_put {V}. Arguments l_del {V}. Arguments l_loop {V}. Arguments l_end {V}. Arguments l_file {V}. Arguments l_start {V}.

(** UPDATE on the fields of a row, dml/upd.rs:282-366 ([RowModel.update_row]); [false]: the statement is refused *)
Definition srv_app (farith : aop -> N -> N -> N) (fs : fieldmap) (asg : list assign) (m : rfields) : rfields * bool :=
  match update_row farith fs m asg with (m', RoOk) => (m', true) | (m', _) => (m', false) end.
