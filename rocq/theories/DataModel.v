(** Data tags and cells: [data/tag.rs], [data/cell.rs]. *)
From Coq Require Import List NArith ZArith Lia Bool.
From Verif Require Import Bytes.
Import ListNotations.
Local Open Scope N_scope.

(** data/tag.rs:49-57 [TagClass] *)
Inductive tclass := TcBool | TcUInt | TcSInt | TcFloat | TcBin | TcStr | TcList.

(** data/tag.rs:73-88 [TagSelector] *)
Inductive tsel :=
| TsBool | TsU8 | TsU16 | TsU32 | TsU64 | TsS8 | TsS16 | TsS32 | TsS64
| TsF32 | TsF64 | TsBin | TsStr | TsList.

(** data/tag.rs:146-152 [TagUnique] ([Illegal] is [TuIllegal]) *)
Inductive tuniq := TuUInt | TuSInt | TuBin | TuStr | TuIllegal.

(** discriminants of [TagSelector], data/tag.rs:73-88 *)
Definition tsel_code (s : tsel) : N :=
  match s with
  | TsBool => 0 | TsU8 => 1 | TsU16 => 2 | TsU32 => 3 | TsU64 => 4
  | TsS8 => 5 | TsS16 => 6 | TsS32 => 7 | TsS64 => 8
  | TsF32 => 9 | TsF64 => 10 | TsBin => 11 | TsStr => 12 | TsList => 13
  end.

(** [TagSelector::from_raw]/[try_from_raw] (derived by [sky_macros::TaggedEnum]): [None] above the
    maximum discriminant 13. *)
Definition tsel_of_code (n : N) : option tsel :=
  match n with
  | 0 => Some TsBool | 1 => Some TsU8 | 2 => Some TsU16 | 3 => Some TsU32 | 4 => Some TsU64
  | 5 => Some TsS8 | 6 => Some TsS16 | 7 => Some TsS32 | 8 => Some TsS64
  | 9 => Some TsF32 | 10 => Some TsF64 | 11 => Some TsBin | 12 => Some TsStr | 13 => Some TsList
  | _ => None
  end.

(** data/tag.rs:113-130 [TagSelector::tag_class] *)
Definition tsel_class (s : tsel) : tclass :=
  match s with
  | TsBool => TcBool
  | TsU8 | TsU16 | TsU32 | TsU64 => TcUInt
  | TsS8 | TsS16 | TsS32 | TsS64 => TcSInt
  | TsF32 | TsF64 => TcFloat
  | TsBin => TcBin | TsStr => TcStr | TsList => TcList
  end.

(** data/tag.rs:95-112 [TagSelector::tag_unique] *)
Definition tsel_uniq (s : tsel) : tuniq :=
  match s with
  | TsU8 | TsU16 | TsU32 | TsU64 => TuUInt
  | TsS8 | TsS16 | TsS32 | TsS64 => TuSInt
  | TsBin => TuBin | TsStr => TuStr
  | _ => TuIllegal
  end.

(** data/tag.rs:49-57 discriminants of [TagClass] *)
Definition tclass_code (c : tclass) : N :=
  match c with
  | TcBool => 0 | TcUInt => 1 | TcSInt => 2 | TcFloat => 3 | TcBin => 4 | TcStr => 5 | TcList => 6
  end.

(** derived [PartialEq] of [TagClass], data/tag.rs:39 *)
Definition tclass_eqb (a b : tclass) : bool := tclass_code a =? tclass_code b.
(** derived [PartialEq] of [TagSelector], data/tag.rs:63 *)
Definition tsel_eqb (a b : tsel) : bool := tsel_code a =? tsel_code b.

(** The tags whose payload is one 64-bit word: unsigned, signed, float
    (data/cell.rs:80-163, [new_uint]/[new_sint]/[new_float]/[new_qw]). *)
Inductive qsel := QU8 | QU16 | QU32 | QU64 | QS8 | QS16 | QS32 | QS64 | QF32 | QF64.

(** the selector of a word-sized cell, data/tag.rs:73-88 *)
Definition qsel_tsel (q : qsel) : tsel :=
  match q with
  | QU8 => TsU8 | QU16 => TsU16 | QU32 => TsU32 | QU64 => TsU64
  | QS8 => TsS8 | QS16 => TsS16 | QS32 => TsS32 | QS64 => TsS64
  | QF32 => TsF32 | QF64 => TsF64
  end.

(** inverse of [qsel_tsel]: which selectors are word-sized, data/tag.rs:113-130 (classes
    UnsignedInt, SignedInt, Float) *)
Definition tsel_qsel (s : tsel) : option qsel :=
  match s with
  | TsU8 => Some QU8 | TsU16 => Some QU16 | TsU32 => Some QU32 | TsU64 => Some QU64
  | TsS8 => Some QS8 | TsS16 => Some QS16 | TsS32 => Some QS32 | TsS64 => Some QS64
  | TsF32 => Some QF32 | TsF64 => Some QF64
  | _ => None
  end.

(** data/cell.rs:50-54 [Datacell]: an uninitialised cell ([null()], cell.rs:354-363) is [CNull];
    an initialised one is its selector plus payload. The payload of a word cell is the raw 64-bit
    pattern ([read_uint], cell.rs:92, is also how storage reads signed and float cells). The
    [RwLock] around lists (cell.rs:246) is dropped: the model is sequential at this level. *)
Inductive cell :=
| CNull
| CBool (b : bool)
| CQw (q : qsel) (w : N)
| CBin (b : bytes)
| CStr (b : bytes)
| CList (l : list cell).

(** [dc.tag().tag_selector()], cell.rs:348-350; null cells carry the BOOL tag (cell.rs:357-358). *)
Definition cell_sel (c : cell) : tsel :=
  match c with
  | CNull => TsBool
  | CBool _ => TsBool
  | CQw q _ => qsel_tsel q
  | CBin _ => TsBin
  | CStr _ => TsStr
  | CList _ => TsList
  end.

(** [dc.kind()], cell.rs:351-353 *)
Definition cell_class (c : cell) : tclass := tsel_class (cell_sel c).

(** [dc.is_init()], cell.rs:367 *)
Definition cell_init (c : cell) : bool := match c with CNull => false | _ => true end.

(** induction principle that goes through the nested lists *)
Section CellInd.
  Variable P : cell -> Prop.
  Hypothesis Hnull : P CNull.
  Hypothesis Hbool : forall b, P (CBool b).
  Hypothesis Hqw : forall q w, P (CQw q w).
  Hypothesis Hbin : forall b, P (CBin b).
  Hypothesis Hstr : forall b, P (CStr b).
  Hypothesis Hlist : forall l, Forall P l -> P (CList l).
  (** induction principle of Coq for [cell], without a counterpart in the code *)
  Fixpoint cell_ind' (c : cell) : P c :=
    match c with
    | CNull => Hnull
    | CBool b => Hbool b
    | CQw q w => Hqw q w
    | CBin b => Hbin b
    | CStr b => Hstr b
    | CList l =>
        Hlist l ((fix go (l : list cell) : Forall P l :=
                    match l with
                    | [] => Forall_nil P
                    | x :: l' => Forall_cons x (cell_ind' x) (go l')
                    end) l)
    end.
End CellInd.

(** Structural well-formedness guaranteed by Rust's types: words are 64-bit, slice lengths are
    [usize], [Box<str>] is valid UTF-8 ([utf8] is the validity check of the standard library). *)
Section Wf.
  Variable utf8 : bytes -> bool.
  (** what the types of data/cell.rs and data/tag.rs guarantee, as above *)
  Inductive cell_wf : cell -> Prop :=
  | wf_null : cell_wf CNull
  | wf_bool b : cell_wf (CBool b)
  | wf_qw q w : w < two64 -> cell_wf (CQw q w)
  | wf_bin b : len b < two64 -> cell_wf (CBin b)
  | wf_str b : len b < two64 -> utf8 b = true -> cell_wf (CStr b)
  | wf_list l : N.of_nat (List.length l) < two64 -> Forall cell_wf l -> cell_wf (CList l).
End Wf.

Lemma tsel_of_code_code s : tsel_of_code (tsel_code s) = Some s.
Proof. destruct s; reflexivity. Qed.

Lemma tsel_code_max s : tsel_code s <= 13.
Proof. destruct s; vm_compute; discriminate. Qed.

Lemma tsel_code_inj a b : tsel_code a = tsel_code b -> a = b.
Proof.
  intros H. assert (E : Some a = Some b) by (rewrite <- !tsel_of_code_code, H; reflexivity).
  congruence.
Qed.

Lemma tsel_of_code_some n s : tsel_of_code n = Some s -> n = tsel_code s.
Proof.
  destruct n as [|p]; [intros H; inversion H; reflexivity|].
  do 4 (destruct p as [p|p|]; try discriminate; try (intros H; inversion H; reflexivity)).
Qed.

Lemma qsel_tsel_qsel q : tsel_qsel (qsel_tsel q) = Some q.
Proof. destruct q; reflexivity. Qed.

Lemma tsel_qsel_some s q : tsel_qsel s = Some q -> s = qsel_tsel q.
Proof. destruct s; intros H; inversion H; reflexivity. Qed.

Lemma tsel_eqb_eq a b : tsel_eqb a b = true <-> a = b.
Proof.
  unfold tsel_eqb. rewrite N.eqb_eq. split; [apply tsel_code_inj|congruence].
Qed.

Lemma tclass_eqb_eq a b : tclass_eqb a b = true <-> a = b.
Proof. destruct a, b; cbv; split; intros; congruence. Qed.
