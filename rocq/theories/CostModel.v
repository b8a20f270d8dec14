(** The row index with its work counted: how many keys are compared and how many rows are copied. All lines are those of
    /repo/server/src/engine/idx/mtchm/mod.rs; without the counts the functions are those of MtModel.v (proved). *)
From Coq Require Import List Arith NArith Bool.
From Verif Require Import MtModel.
Import ListNotations.
Local Open Scope nat_scope.

Section Cost.
Variables K V : Type.
Variable keq : K -> K -> bool.
Variable hash : K -> N.
Local Notation elem := (K * V)%type.
Local Notation tree := (tree K V).

(** 348, 469-474 (access.rs, [find]/[position]): comparisons until the first hit *)
Fixpoint cmps (k : K) (d : list elem) : nat :=
  match d with
  | [] => 0
  | e :: r => if keq k (fst e) then 1 else S (cmps k r)
  end.

(** 456-485: the answer and the number of comparisons *)
Fixpoint lookup_c (n : nat) (h : N) (t : tree) (k : K) : option (option elem * nat) :=
  match n with
  | 0 => None
  | S n =>
      match t with
      | TNull => Some (None, 0)
      | TLeaf d => Some (find (fun e => keq k (fst e)) d, cmps k d)
      | TBranch b =>
          match nth_error b (N.to_nat (N.land h mask)) with
          | None => None
          | Some c => lookup_c n (N.shiftr h branch_lg) c k
          end
      end
  end.

(** 269-437: the result, the comparisons and the rows copied (359-360, 392) *)
Fixpoint patch_c (n : nat) (level : N) (t : tree) (e : elem) (m : wmode) : option ((tree * bool * option elem) * (nat * nat)) :=
  match n with
  | 0 => None
  | S n =>
      match t with
      | TNull =>
          match m with
          | Refresh => Some ((TNull, false, None), (0, 0))
          | _ => Some ((TLeaf [e], true, None), (0, 0))
          end
      | TLeaf d =>
          match d with
          | [] => None
          | e0 :: _ =>
              if negb (keq (fst e) (fst e0)) && (level <? height_ub)%N
              then
                match m with
                | Refresh => Some ((t, false, None), (1, 0))
                | _ =>
                    match patch_c n level (TBranch (set_nth (chunk (hash (fst e0)) level) t (null_branch K V))) e m with
                    | Some (r, (a, b)) => Some (r, (S a, b))
                    | None => None
                    end
                end
              else
                let a := S (cmps (fst e) d) in
                match position K V keq (fst e) d with
                | Some i =>
                    match nth_error d i with
                    | None => None
                    | Some old =>
                        match m with
                        | Fresh => Some ((t, false, Some old), (a, 0))
                        | _ => Some ((TLeaf ((firstn i d ++ skipn (S i) d) ++ [e]), false, Some old), (a, length d - 1))
                        end
                    end
                | None =>
                    match m with
                    | Refresh => Some ((t, false, None), (a, 0))
                    | _ => Some ((TLeaf (d ++ [e]), true, None), (a, length d))
                    end
                end
          end
      | TBranch b =>
          if (level <? height_ub)%N
          then
            let i := chunk (hash (fst e)) level in
            match nth_error b i with
            | None => None
            | Some c =>
                match patch_c n (level + branch_lg) c e m with
                | Some ((c', up, old), w) => Some ((TBranch (set_nth i c' b), up, old), w)
                | None => None
                end
            end
          else None
      end
  end.
(** comparisons of a lookup of a key in the index (456-485) *)
Definition lookup_work (s : idx K V) (k : K) : option nat := option_map snd (lookup_c turns (hash k) (root K V s) k).
(** comparisons and copied rows of an insertion (269-437, patch.rs:64-83) *)
Definition insert_work (s : idx K V) (e : elem) : option (nat * nat) := option_map snd (patch_c turns 0 (root K V s) e Fresh).
End Cost.
