(** What a map shared by threads is. Every write, removal and lookup takes effect at once, at some moment between its
    call and its return. A scan is not taken at one moment: it answers distinct keys, only elements that were in the
    map at some moment of the scan, and every key that was in the map during the whole scan. The size answers
    anything here; what it answers is said elsewhere. *)
From Coq Require Import List Arith NArith.
From Verif Require Import MtModel ChtModel.
Import ListNotations.

Section Spec.
Variables K V : Type.
Variable keq : K -> K -> bool.
Definition amap : Type := K -> option (K * V).
Definition put (e : K * V) (m : amap) : amap := fun k => if keq k (fst e) then Some e else m k.
Definition del (k0 : K) (m : amap) : amap := fun k => if keq k k0 then None else m k.

(** the map and the answer after an operation *)
Definition mstep (m : amap) (o : op K V) : option (amap * option (K * V)) :=
  match o with
  | OWrite _ _ Fresh e => Some (match m (fst e) with Some _ => m | None => put e m end, m (fst e))
  | OWrite _ _ Refresh e => Some (match m (fst e) with Some _ => put e m | None => m end, m (fst e))
  | OWrite _ _ Any e => Some (put e m, m (fst e))
  | ODel _ _ k => Some (del k m, m k)
  | OGet _ _ k => Some (m, m k)
  | OScan _ _ | OLen _ _ => None
  end.

(** a call that has not taken effect, a scan (the elements in the map at some moment since its call, and the keys in
    the map all the time since its call), a call that has its answer *)
Inductive athread : Type := AIdle | APending (o : op K V) | AScan (seen : K * V -> Prop) (always : K -> Prop) | AReady (r : res K V).
Record ast : Type := MkA { am : amap; ath : nat -> athread }.
Definition ainit : ast := MkA (fun _ => None) (fun _ => AIdle).
Definition acall (m : amap) (o : op K V) : athread :=
  match o with OScan _ _ => AScan (fun e => m (fst e) = Some e) (fun k => m k <> None) | _ => APending o end.
(** what a scan has when the map becomes [m] *)
Definition watch (m : amap) (a : athread) : athread :=
  match a with AScan se al => AScan (fun e => se e \/ m (fst e) = Some e) (fun k => al k /\ m k <> None) | _ => a end.

Inductive astep : ast -> list (event K V) -> ast -> Prop :=
| a_call m th t o : th t = AIdle -> astep (MkA m th) [EInv K V t o] (MkA m (fup th t (acall m o)))
| a_eff m th t o m' r : th t = APending o -> mstep m o = Some (m', r) ->
    astep (MkA m th) [] (MkA m' (fup (fun u => watch m' (th u)) t (AReady (RElem K V r))))
| a_scan m th t se al l : th t = AScan se al -> NoDup (map fst l) -> (forall e, In e l -> se e) -> (forall k, al k -> In k (map fst l)) ->
    astep (MkA m th) [] (MkA m (fup th t (AReady (RList K V l))))
| a_len m th t n : th t = APending (OLen K V) -> astep (MkA m th) [] (MkA m (fup th t (AReady (RLen K V n))))
| a_ret m th t r : th t = AReady r -> astep (MkA m th) [ERet K V t r] (MkA m (fup th t AIdle)).

Inductive asteps : ast -> list (event K V) -> ast -> Prop :=
| as_refl s : asteps s [] s
| as_step s e s' e' s'' : astep s e s' -> asteps s' e' s'' -> asteps s (e ++ e') s''.
End Spec.
