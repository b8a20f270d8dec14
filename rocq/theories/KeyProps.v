(** C88: primary keys compare by value. *)
From Coq Require Import List NArith Bool Lia.
From Coq Require Import Strings.String.
From Verif Require Import Bytes DataModel RowModel RowTable KeyModel KeySpec KeyProofs.
Import ListNotations.
Local Open Scope N_scope.

(** Two keys in memory, wherever their bytes lie: the comparison reads only their own bytes and answers whether they
    are the same value. *)
Theorem C88_compare_partial : forall m a b x y, is_key m a x -> is_key m b y ->
  exists r, key_eq m a b = Some r /\ (r = true <-> x = y).
Proof. intros m a b x y A B. exists (pkey_eqb x y). split; [apply key_eq_ok; assumption|apply pkey_eqb_eq]. Qed.

(** A key and a literal of a query (of a kind that can be a key). *)
Theorem C88_literal_partial : forall m k l x y, is_key m k x -> is_lit m l y -> lit_key y <> PkNull ->
  exists r, key_eq_lit m k l = Some r /\ (r = true <-> x = lit_key y).
Proof. intros m k l x y A B N. exists (pkey_eqb x (lit_key y)). split; [apply key_eq_lit_ok; assumption|apply pkey_eqb_eq]. Qed.

(** Equal keys, or an equal key and literal, make the same calls to the hasher, so every hasher gives them the
    same hash; making the calls reads only their own bytes. *)
Theorem C88_hash_partial : forall m m' k x, is_key m k x ->
  exists f, key_feed m k = Some f /\
    (forall k', is_key m' k' x -> key_feed m' k' = Some f) /\
    (forall l y, is_lit m' l y -> lit_key y = x -> lit_feed m' l = Some f).
Proof.
  intros m m' k x A. exists (feed_of x). split; [apply key_feed_ok; exact A|]. split; [intros k' A'; apply key_feed_ok; exact A'|].
  intros l y B E. rewrite <- E. apply lit_feed_ok; [exact B|]. rewrite E. destruct A; discriminate.
Qed.

(** A key made from a cell is the value of the cell; read back with its column's type it is that value again. *)
Theorem C88_made : forall m d c, is_cell m d c -> cell_key c <> PkNull ->
  is_key m (key_of_dc d) (cell_key c) /\ dc_value m d = Some c /\
  dc_value m (vdc_pk (key_of_dc d) (cell_sel c)) = Some c.
Proof.
  intros m d c A N. pose proof (made_ok _ _ _ A N) as M. split; [exact M|].
  assert (V : forall q w, match qsel_tsel q with TsBool => Some (CBool (w =? 1)) | TsBin => option_map CBin (rd m zero_block w) | TsStr => option_map CStr (rd m zero_block w) | TsList => None
                      | t => match tsel_qsel t with Some q0 => Some (CQw q0 w) | None => None end end = Some (CQw q w)) by (intros q w; destruct q; reflexivity).
  destruct A as [|o|q w|p b A|p b A]; try (exfalso; apply N; reflexivity); split; unfold dc_value, vdc_pk, key_of_dc; cbn [di dt dq dn kq kn cell_sel]; try apply V; rewrite (rd_at _ _ _ A); reflexivity.
Qed.
(** Keys read from a file (core/index/key.rs:157-176), and copies (177-182). *)
Theorem C88_from_file : forall m p b w, at_addr m p b ->
  is_key m (key_of_qw TuUInt w) (PkUInt w) /\ is_key m (key_of_qw TuSInt w) (PkSInt w) /\
  is_key m (key_of_dual TuBin (len b) p) (PkBin b) /\ is_key m (key_of_dual TuStr (len b) p) (PkStr b).
Proof. intros m p b w A. split; [constructor|]. split; [constructor|]. split; constructor; exact A. Qed.
Theorem C88_raw_clone : forall m k v, is_key m k v -> is_key m (key_raw_clone k) v.
Proof. intros m k v A. destruct k; exact A. Qed.

(** ** What is false *)
(** The key of a row whose key is null (such rows can be written, C18): comparing or hashing it makes a slice at
    address 0, whatever the memory. *)
Theorem C88_null_refuted : forall m, key_eq m (key_of_dc dc_null) (key_of_dc dc_null) = None /\ key_feed m (key_of_dc dc_null) = None.
Proof. intros m. split; reflexivity. Qed.
(** A literal that cannot be a key (a truth value or a float): hashing it reads outside of memory unless it is zero. *)
Theorem C88_other_literal_refuted : exists l y, (forall m, is_lit m l y) /\ forall m, m zero_block = None -> lit_feed m l = None.
Proof. exists (mk_rlit TsBool 1 zero_block), (LBool true). split; [intros m; exact (IlO m true)|]. intros m H. unfold lit_feed, lit_vdata, rd. cbn. rewrite H. reflexivity. Qed.
(** [Clone] has its two cases the wrong way round. Copying an integer other than 0 reads that many bytes at the static
    empty block; copying a binary or string value copies only the pointer, so when the copy is dropped the bytes of
    the original are gone, and dropping it frees them again. ([Clone] is not called by the server; [raw_clone] is.) *)
Theorem C88_clone_integer : forall m p k w, m zero_block = None -> is_key m k (PkUInt w) \/ is_key m k (PkSInt w) -> w <> 0 -> key_clone m p k = CUb.
Proof.
  intros m p k w Z I W. unfold key_clone. assert (R : rd m zero_block w = None) by (unfold rd; cbn [N.eqb zero_block]; destruct (N.eqb_spec w 0); [contradiction|]; change (1 =? 0) with false; cbv iota; change 1 with zero_block; rewrite Z; reflexivity).
  destruct I as [I|I]; inversion I; cbn [kt kq kn]; rewrite R; reflexivity.
Qed.
Theorem C88_clone_bytes : forall m p k v, is_key m k v -> kind_of v = Some KBinary \/ kind_of v = Some KString -> body_of v <> [] ->
  exists m1 k1 m2, key_clone m p k = COk m1 k1 /\ key_drop m1 k1 = Some m2 /\ vblock m2 k = None /\ key_drop m2 k = None.
Proof.
  intros m p k v A K B.
  assert (L : forall b, b <> [] -> len b =? 0 = false) by (intros b NB; destruct (N.eqb_spec (len b) 0) as [E|]; [|reflexivity]; destruct b; [contradiction NB; reflexivity|unfold len in E; cbn in E; lia]).
  destruct A as [w|w|q b (P & A)|q b (P & A)]; try (destruct K as [K|K]; discriminate K); cbn [body_of] in B; (destruct A as [A|A]; [contradiction|]).
  - exists m, (mk_key TuBin (len b) q), (fun a => if a =? q then None else m a). split; [reflexivity|].
    assert (P0 : q =? 0 = false) by (apply N.eqb_neq; exact P). unfold key_drop, vblock, vlen, rd; cbn [kt kq kn]. change (tu_wide TuBin) with true; cbv iota. rewrite N.mul_1_r, P0, (L b B), A, !N.eqb_refl. split; [reflexivity|]. split; reflexivity.
  - exists m, (mk_key TuStr (len b) q), (fun a => if a =? q then None else m a). split; [reflexivity|].
    assert (P0 : q =? 0 = false) by (apply N.eqb_neq; exact P). unfold key_drop, vblock, vlen, rd; cbn [kt kq kn]. change (tu_wide TuStr) with true; cbv iota. rewrite N.mul_1_r, P0, (L b B), A, !N.eqb_refl. split; [reflexivity|]. split; reflexivity.
Qed.

(** * Cases *)
(** two blocks with the same bytes at different addresses *)
Definition ex_mem : mem := fun a => if a =? 4096 then Some (bstr "sayan") else if a =? 8192 then Some (bstr "sayan") else None.
Definition ex_k1 : key := key_of_dc (dc_wide TsStr 4096 5).
Definition ex_k2 : key := key_of_dual TuStr 5 8192.
Definition ex_l : rlit := lit_wide TsStr 8192 5.
Example C88_case : is_key ex_mem ex_k1 (PkStr (bstr "sayan")) /\ is_key ex_mem ex_k2 (PkStr (bstr "sayan")) /\ is_lit ex_mem ex_l (LStr (bstr "sayan")) /\
  key_eq ex_mem ex_k1 ex_k2 = Some true /\ key_eq_lit ex_mem ex_k1 ex_l = Some true /\ key_feed ex_mem ex_k1 = lit_feed ex_mem ex_l /\
  key_eq ex_mem ex_k1 (key_of_dual TuBin 5 8192) = Some false.
Proof.
  assert (A1 : at_addr ex_mem 4096 (bstr "sayan")) by (split; [discriminate|right; reflexivity]). assert (A2 : at_addr ex_mem 8192 (bstr "sayan")) by (split; [discriminate|right; reflexivity]).
  split; [exact (IkT _ _ _ A1)|]. split; [exact (IkT _ _ _ A2)|]. split; [exact (IlT _ _ _ A2)|]. do 3 (split; [vm_compute; reflexivity|]). vm_compute. reflexivity.
Qed.
Example C88_case_cell : is_cell ex_mem (dc_quad TsU8 7) (CQw QU8 7) /\ key_of_dc (dc_quad TsU8 7) = key_of_qw TuUInt 7 /\ is_cell ex_mem dc_null CNull.
Proof. split; [exact (IcQ ex_mem QU8 7)|]. split; [reflexivity|exact (IcN ex_mem)]. Qed.
Example C88_case_clone : ex_mem zero_block = None /\ key_clone ex_mem 500 (key_of_qw TuUInt 7) = CUb /\ key_clone ex_mem 500 ex_k1 = COk ex_mem ex_k1.
Proof. do 2 (split; [vm_compute; reflexivity|]). reflexivity. Qed.

Print Assumptions C88_compare_partial.
Print Assumptions C88_literal_partial.
Print Assumptions C88_hash_partial.
Print Assumptions C88_made.
Print Assumptions C88_from_file.
Print Assumptions C88_raw_clone.
Print Assumptions C88_null_refuted.
Print Assumptions C88_other_literal_refuted.
Print Assumptions C88_clone_integer.
Print Assumptions C88_clone_bytes.
