(** Proofs about the DML parsers, part 3: INSERT. *)
From Coq Require Import Strings.String List NArith Bool Arith Lia.
From Verif Require Import Bytes DataModel RowModel LexModel ParseModel ParseSpec ParseProofs.
Import ListNotations.

Section Ins.
Variable uuid_text : nat -> bytes.
Variable uuid_bin : nat -> bytes.
Variable now_secs : nat -> N.
Notation fnval := (fnval uuid_text uuid_bin now_secs).
Notation lval := (lval uuid_text uuid_bin now_secs).
Notation lvals := (lvals uuid_text uuid_bin now_secs).
Notation rval := (rval uuid_text uuid_bin now_secs).
Notation tvals := (tvals uuid_text uuid_bin now_secs).
Notation mvals := (mvals uuid_text uuid_bin now_secs).
Notation call_fn := (call_fn uuid_text uuid_bin now_secs).
Notation list_loop := (list_loop uuid_text uuid_bin now_secs).
Notation parse_list := (parse_list uuid_text uuid_bin now_secs).
Notation tuple_elem := (tuple_elem uuid_text uuid_bin now_secs).
Notation tuple_loop := (tuple_loop uuid_text uuid_bin now_secs).
Notation parse_tuple := (parse_tuple uuid_text uuid_bin now_secs).
Notation map_value := (map_value uuid_text uuid_bin now_secs).
Notation map_loop := (map_loop uuid_text uuid_bin now_secs).
Notation parse_map := (parse_map uuid_text uuid_bin now_secs).
Notation parse_insert := (parse_insert uuid_text uuid_bin now_secs).
Notation insert_of := (insert_of uuid_text uuid_bin now_secs).
Notation run_prod := (run_prod uuid_text uuid_bin now_secs).
Notation wf_insert := (wf_insert uuid_text uuid_bin now_secs).
Notation wf_data := (wf_data uuid_text uuid_bin now_secs).

(* ------------------------------------------------------------------ *)
(** * Producer functions *)

Lemma ldfunc_iff k f : ldfunc k = Some f <-> In (k, f) prod_lut.
Proof.
  split.
  - unfold ldfunc. destruct (nth_error prod_lut _) as [[nm g]|] eqn:E; [|discriminate].
    destruct (bseq nm k) eqn:B; [|discriminate]. intros H. injection H as <-. apply bseq_eq in B. subst nm.
    apply nth_error_In in E. exact E.
  - intros [H|[H|[H|[]]]]; injection H as <- <-; reflexivity.
Qed.
Lemma fn_iff k n c : (exists f, ldfunc k = Some f /\ c = run_prod f n) <-> fnval k n c.
Proof.
  split.
  - intros (f & H & ->). apply ldfunc_iff in H. destruct H as [H|[H|[H|[]]]]; injection H as <- <-; constructor.
  - intros H. destruct H; eexists; (split; [reflexivity | reflexivity]).
Qed.
Lemma call_ok f r c b : fnval f (length r) c ->
  call_fn f (mk_pst (TId f :: TSym SOpenParen :: TSym SCloseParen :: r) b) = (Some c, mk_pst r b).
Proof.
  intros H. apply fn_iff in H. destruct H as (g & L & ->). unfold ParseModel.call_fn. cbn [ahead rest skipn okay].
  rewrite L. reflexivity.
Qed.
Lemma sig_inv s f : fn_sig s = Some f ->
  exists r, rest s = TId f :: TSym SOpenParen :: TSym SCloseParen :: r.
Proof.
  unfold fn_sig. destruct (rest s) as [|[| |w|] [|a [|b r]]]; try discriminate.
  destruct (is_sym SOpenParen a && is_sym SCloseParen b) eqn:E; [|discriminate].
  apply andb_true_iff in E. destruct E as [A B]. apply is_sym_eq in A. apply is_sym_eq in B. subst.
  intros H. injection H as <-. eauto.
Qed.
Lemma call_inv f s c s' : fn_sig s = Some f -> call_fn f s = (Some c, s') ->
  okay s' = okay s /\ exists r, rest s' = r /\
  rest s = TId f :: TSym SOpenParen :: TSym SCloseParen :: r /\ fnval f (length r) c.
Proof.
  intros G H. apply sig_inv in G. destruct G as (r & R). unfold ParseModel.call_fn in H.
  destruct (ldfunc f) as [g|] eqn:L; [|discriminate H]. cbn [option_map] in H. injection H as <- <-.
  split; [reflexivity|]. exists r. cbn [ahead rest]. rewrite R. cbn [skipn]. split; [reflexivity|].
  split; [reflexivity|]. apply fn_iff. exists g. split; [exact L|]. unfold remaining. cbn [ahead rest].
  rewrite R. reflexivity.
Qed.
Lemma call_total f s v s' : call_fn f s = (v, s') -> length (rest s') <= length (rest s) /\ okay s' = okay s.
Proof.
  unfold ParseModel.call_fn. intros H. injection H as _ <-. cbn [ahead rest okay]. rewrite skipn_length.
  split; [lia | reflexivity].
Qed.

(* ------------------------------------------------------------------ *)
(** * The grammar *)

Scheme lval_ind2 := Induction for ParseSpec.lval Sort Prop
  with lvals_ind2 := Induction for ParseSpec.lvals Sort Prop.
Combined Scheme lval_mut from lval_ind2, lvals_ind2.

(** a value is a prefix that does not look at what follows, except for its length *)
Lemma lval_prefix :
  (forall t c r, lval t c r -> exists u, t = u ++ r /\ u <> nil /\
     forall r', length r' = length r -> lval (u ++ r') c r') /\
  (forall t l r, lvals t l r -> exists u, t = u ++ r /\ u <> nil /\
     forall r', length r' = length r -> lvals (u ++ r') l r').
Proof.
  apply lval_mut.
  - intros x r. exists [TLit x]. split; [reflexivity|]. split; [discriminate|]. intros r' _. constructor.
  - intros f c r F. exists [TSym SAt; TId f; TSym SOpenParen; TSym SCloseParen].
    split; [reflexivity|]. split; [discriminate|]. intros r' L. constructor. rewrite L. exact F.
  - intros r. exists [TSym SOpenSq; TSym SCloseSq]. split; [reflexivity|]. split; [discriminate|].
    intros r' _. constructor.
  - intros t l r _ (u & -> & N & H) U. exists (TSym SOpenSq :: u). split; [reflexivity|].
    split; [discriminate|]. intros r' L. cbn [app]. constructor; [apply H; exact L | exact U].
  - intros t c r _ (u & -> & N & H). exists (u ++ [TSym SCloseSq]). rewrite <- app_assoc. split; [reflexivity|].
    split; [destruct u; discriminate|]. intros r' L. rewrite <- app_assoc. cbn [app]. constructor. apply H.
    cbn. lia.
  - intros t c t' l r _ (u & -> & N & H) _ (u' & -> & N' & H'). exists (u ++ TSym SComma :: u').
    rewrite <- app_assoc. split; [reflexivity|]. split; [destruct u; discriminate|]. intros r' L.
    rewrite <- app_assoc. cbn [app]. eapply lvs_more; [apply H | apply H'; exact L].
    cbn [length]. rewrite !app_length. lia.
Qed.
Lemma rval_prefix t c r : rval t c r -> exists u, t = u ++ r /\ u <> nil /\
  forall r', length r' = length r -> rval (u ++ r') c r'.
Proof.
  intros [r0|t0 c0 r0 H].
  - exists [kmis KmNull]. split; [reflexivity|]. split; [discriminate|]. intros r' _. constructor.
  - apply (proj1 lval_prefix) in H. destruct H as (u & E & N & H). exists u. split; [exact E|].
    split; [exact N|]. intros r' L. apply rv_val. apply H. exact L.
Qed.

Lemma lval_head t c r : lval t c r -> exists x t', t = x :: t' /\ is_sym SCloseSq x = false /\
  is_sym SCloseParen x = false /\ is_misc KmNull x = false.
Proof. intros H. destruct H; do 2 eexists; (split; [reflexivity|]); cbn; auto. Qed.
Lemma lvals_head t l r : lvals t l r -> exists x t', t = x :: t' /\ is_sym SCloseSq x = false.
Proof.
  intros H. destruct H as [t c r H|t c t' l r H _]; apply lval_head in H; destruct H as (x & t2 & E & N & _); eauto.
Qed.
Lemma lvals_nonempty t l r : lvals t l r -> l <> nil.
Proof. intros H. destruct H; discriminate. Qed.

(* ------------------------------------------------------------------ *)
(** * Uniformity *)

Definition inv (l : list cell) (prev : option tclass) : Prop :=
  (forall a b, In a l -> In b l -> cell_class a = cell_class b) /\
  (forall la x, In (CList la) l -> In x la -> prev = Some (cell_class x)) /\
  (prev <> None -> exists la x, In (CList la) l /\ In x la).

Definition dscr (c : cell) : option tclass :=
  match c with CList (x :: _) => Some (cell_class x) | _ => None end.

Lemma inv_nil : inv nil None.
Proof. split; [intros a b []|]. split; [intros la x []|]. congruence. Qed.
Lemma inv_uniform l prev : inv l prev -> uniform l.
Proof.
  intros (A & B & C). split; [exact A|]. intros la lb a b IA IB Ia Ib.
  pose proof (B _ _ IA Ia). pose proof (B _ _ IB Ib). congruence.
Qed.

(** elements that are lists are themselves uniform *)
Definition elem_uniform (c : cell) : Prop :=
  match c with CList l => forall a b, In a l -> In b l -> cell_class a = cell_class b | _ => True end.

Lemma same_kind_iff l d : (forall a b, In a l -> In b l -> cell_class a = cell_class b) ->
  (same_kind l d = true <-> forall a, In a l -> cell_class d = cell_class a).
Proof.
  intros A. unfold same_kind. destruct l as [|x l].
  - split; [intros _ a [] | reflexivity].
  - rewrite tclass_eqb_eq. split.
    + intros E a I. rewrite E. apply A; [left; reflexivity | exact I].
    + intros H. apply H. left. reflexivity.
Qed.

Lemma inv_step l prev d : inv l prev -> elem_uniform d ->
  same_kind l d = true -> nested_ok prev (dscr d) = true ->
  inv (l ++ [d]) (nested_next prev (dscr d)).
Proof.
  intros (A & B & C) U K NK. pose proof (proj1 (same_kind_iff _ _ A) K) as K'.
  assert (N2 : forall la x, In (CList la) l -> In x la -> nested_next prev (dscr d) = Some (cell_class x)).
  { intros la x I J. rewrite (B _ _ I J). unfold nested_next. reflexivity. }
  assert (N3 : forall la x, d = CList la -> In x la -> nested_next prev (dscr d) = Some (cell_class x)).
  { intros la x -> J. cbn in U. destruct la as [|y la]; [destruct J|]. cbn [dscr] in *.
    assert (E : cell_class y = cell_class x) by (apply U; [left; reflexivity | exact J]).
    unfold nested_next. destruct prev as [p|]; [|congruence]. cbn [nested_ok dscr_eqb] in NK.
    apply tclass_eqb_eq in NK. congruence. }
  split; [|split].
  - intros a b I J. apply in_app_or in I. apply in_app_or in J.
    destruct I as [I|[<-|[]]], J as [J|[<-|[]]]; auto. symmetry. auto.
  - intros la x I J. apply in_app_or in I. destruct I as [I|[I|[]]]; [eauto | apply (N3 la x); auto].
  - intros N. destruct prev as [p|].
    + destruct C as (la & x & I & J); [discriminate|]. exists la, x. split; [apply in_or_app; left|]; assumption.
    + cbn [nested_next] in N. destruct d as [| | | | |[|y m]]; cbn [dscr] in N; try congruence.
      exists (y :: m), y. split; [apply in_or_app; right; left; reflexivity | left; reflexivity].
Qed.
Lemma inv_accepts l prev d m : inv l prev -> uniform (l ++ d :: m) ->
  same_kind l d = true /\ nested_ok prev (dscr d) = true.
Proof.
  intros (A & B & C) (U1 & U2). split.
  - apply same_kind_iff; [exact A|]. intros a I. apply U1; apply in_or_app; [right; left; reflexivity | left; exact I].
  - unfold nested_ok. destruct prev as [p|]; [|reflexivity]. destruct (dscr d) as [q|] eqn:D; [|reflexivity].
    destruct d as [| | | | |[|y la]]; cbn in D; try discriminate D. injection D as <-.
    destruct C as (lb & x & I & J); [discriminate|]. pose proof (B _ _ I J) as E. injection E as ->.
    cbn. apply tclass_eqb_eq. apply (U2 lb (y :: la)); [apply in_or_app; left; exact I |
      apply in_or_app; right; left; reflexivity | exact J | left; reflexivity].
Qed.

(* ------------------------------------------------------------------ *)
(** * Lists *)

(** one element of the list loop *)
Definition elem (n : nat) (prev : option tclass) (s : pst) : pres (option (cell * option tclass * pst) * pst) :=
  match rest s with
  | nil => PPanic
  | TLit x :: r => POk (Some (lit_cell x, prev, mk_pst r (okay s)), s)
  | TSym SOpenSq :: r =>
      let nested :=
        match r with
        | nil => PPanic
        | TSym SCloseSq :: r' => POk (nil, None, mk_pst r' (okay s))
        | _ => list_loop n nil None None (mk_pst r (okay s))
        end in
      pbind nested (fun x =>
        let '(nl, d, s1) := x in
        POk (Some (CList nl, nested_next prev d, need (nested_ok prev d) s1), s1))
  | TSym SAt :: r =>
      match fn_sig (mk_pst r (okay s)) with
      | Some f =>
          let '(v, s1) := call_fn f (mk_pst r (okay s)) in
          match v with
          | Some c => POk (Some (c, prev, s1), s1)
          | None => POk (None, poison s1)
          end
      | None => POk (None, poison s)
      end
  | _ => POk (None, poison s)
  end.
Lemma list_loop_eq n l overall prev s : list_loop (S n) l overall prev s =
  if negb (going s) then POk (l, overall, s)
  else pbind (elem n prev s) (fun x =>
    match x with
    | (None, s1) => POk (l, overall, s1)
    | (Some (d, prev', s1), _) =>
        let s2 := need (same_kind l d) s1 in
        let '(stop, s3) := after_elem SCloseSq s2 in
        if stop then POk (l ++ [d], Some (cell_class d), s3)
        else list_loop n (l ++ [d]) (Some (cell_class d)) prev' s3
    end).
Proof. reflexivity. Qed.

(** the head of [parse_list] inside the loop *)
Definition nested (n : nat) (s : pst) : pres (list cell * option tclass * pst) :=
  match rest s with
  | nil => PPanic
  | TSym SCloseSq :: r' => POk (nil, None, mk_pst r' (okay s))
  | _ => list_loop n nil None None s
  end.
Lemma elem_eq n prev s : elem n prev s =
  match rest s with
  | nil => PPanic
  | TLit x :: r => POk (Some (lit_cell x, prev, mk_pst r (okay s)), s)
  | TSym SOpenSq :: r =>
      pbind (nested n (mk_pst r (okay s))) (fun x =>
        let '(nl, d, s1) := x in
        POk (Some (CList nl, nested_next prev d, need (nested_ok prev d) s1), s1))
  | TSym SAt :: r =>
      match fn_sig (mk_pst r (okay s)) with
      | Some f =>
          let '(v, s1) := call_fn f (mk_pst r (okay s)) in
          match v with
          | Some c => POk (Some (c, prev, s1), s1)
          | None => POk (None, poison s1)
          end
      | None => POk (None, poison s)
      end
  | _ => POk (None, poison s)
  end.
Proof. reflexivity. Qed.

(** case analysis on the first token of a value *)
Inductive vhead : token -> Prop :=
| vh_lit x : vhead (TLit x)
| vh_sq : vhead (TSym SOpenSq)
| vh_at : vhead (TSym SAt).
Lemma vhead_dec t : vhead t \/ (is_lit t = false /\ is_sym SOpenSq t = false /\ is_sym SAt t = false).
Proof. destruct t as [[]| | |]; try (left; constructor); right; repeat split; reflexivity. Qed.
Lemma elem_other n prev s t r : rest s = t :: r -> is_lit t = false -> is_sym SOpenSq t = false ->
  is_sym SAt t = false -> elem n prev s = POk (None, poison s).
Proof.
  intros R A B C. unfold elem. rewrite R. destruct t as [[]| | |]; try discriminate; reflexivity.
Qed.

Lemma after_elem_dead close s b s' : after_elem close s = (b, s') -> okay s = false -> okay s' = false /\ rest s' = rest s.
Proof.
  unfold after_elem. intros H O. injection H as _ <-. unfold need, ahead_if. cbn [okay rest]. rewrite O. auto.
Qed.
Lemma after_elem_inv close s b s' : is_sym close (TSym SComma) = false ->
  after_elem close s = (b, s') -> okay s' = true ->
  okay s = true /\ rest s = (if b then TSym close else TSym SComma) :: rest s'.
Proof.
  intros NC H O. unfold after_elem in H. cbn zeta in H. apply pair_equal_spec in H. destruct H as [E S].
  destruct (okay (need (next_is (is_sym SComma) s || next_is (is_sym close) s) s)) eqn:ON.
  2:{ unfold ahead_if in S. subst s'. congruence. }
  subst s'. cbn [ahead_if ahead need rest okay] in *. apply andb_true_iff in ON. destruct ON as [OS C].
  split; [exact OS|]. destruct (next_is (is_sym close) s) eqn:NX.
  - subst b. apply next_sym in NX. destruct NX as (r & ->). reflexivity.
  - subst b. rewrite orb_false_r in C. apply next_sym in C. destruct C as (r & ->). reflexivity.
Qed.
Lemma after_close r close : is_sym close (TSym close) = true ->
  after_elem close (mk_pst (TSym close :: r) true) = (true, mk_pst r true).
Proof. intros H. unfold after_elem. cbn [next_is rest]. rewrite H, orb_true_r. reflexivity. Qed.
Lemma after_comma r close : is_sym close (TSym SComma) = false ->
  after_elem close (mk_pst (TSym SComma :: r) true) = (false, mk_pst r true).
Proof. intros H. unfold after_elem. cbn [next_is rest]. rewrite H. reflexivity. Qed.
Lemma after_len close s b s' : after_elem close s = (b, s') -> length (rest s') <= length (rest s).
Proof.
  unfold after_elem. intros H. injection H as _ <-.
  match goal with |- context [ahead_if ?x _] => destruct x end; cbn [ahead_if ahead need rest];
    [rewrite skipn_length|]; lia.
Qed.

(** what the loop accepts is a list body *)
Lemma list_loop_inv n : forall l o prev s l' d s', list_loop n l o prev s = POk (l', d, s') ->
  okay s' = true -> rest s' <> nil -> inv l prev ->
  okay s = true /\ exists m prev', lvals (rest s) m (rest s') /\ l' = l ++ m /\ inv l' prev' /\
    exists y, In y m /\ d = Some (cell_class y).
Proof.
  induction n as [|n IH]; intros l o prev s l' d s' H O RN IV; [discriminate H|].
  rewrite list_loop_eq in H. destruct (going s) eqn:G; cbn [negb] in H.
  2:{ injection H as <- <- <-. exfalso. unfold going in G. rewrite O in G. destruct (rest s); [congruence | discriminate G]. }
  assert (OS : okay s = true) by (unfold going in G; destruct (rest s); [discriminate G | exact G]).
  split; [exact OS|]. apply pbind_ok in H. destruct H as ([x s1] & E & H).
  destruct x as [[[c prev'] s2]|].
  2:{ exfalso. injection H as <- <- <-. rewrite elem_eq in E. destruct (rest s) as [|t r] eqn:R; [discriminate E|].
      destruct (vhead_dec t) as [V|(A & B & C)].
      - destruct V.
        + discriminate E.
        + apply pbind_ok in E. destruct E as ([[nl dd] s3] & _ & E). discriminate E.
        + destruct (fn_sig _) as [f|]; [|injection E as <-; discriminate O].
          destruct (call_fn f _) as [[c|] s3]; [discriminate E|]. injection E as <-. discriminate O.
      - pose proof (elem_other n prev s t r R A B C) as E2. rewrite elem_eq, R in E2. rewrite E2 in E.
        injection E as <-. discriminate O. }
  cbn zeta in H. destruct (after_elem SCloseSq (need (same_kind l c) s2)) as [stop s3] eqn:AE.
  assert (O3 : okay s3 = true).
  { destruct stop; [injection H as <- <- <-; exact O|]. destruct (okay s3) eqn:X; [reflexivity|].
    exfalso. destruct n; [discriminate H|]. rewrite list_loop_eq in H. unfold going in H. rewrite X in H.
    destruct (rest s3); injection H as <- <- <-; congruence. }
  destruct (after_elem_inv SCloseSq _ _ _ eq_refl AE O3) as (O2 & R2). apply need_ok in O2. destruct O2 as [O2 SK].
  cbn [need rest] in R2.
  (* the element *)
  assert (EL : lval (rest s) c (rest s2) /\ nested_ok prev (dscr c) = true /\ prev' = nested_next prev (dscr c) /\ elem_uniform c).
  { rewrite elem_eq in E. destruct (rest s) as [|t r] eqn:R; [discriminate E|].
    destruct (vhead_dec t) as [V|(A & B & C)].
    - destruct V as [x| |].
      + injection E as <- <- <- <-. cbn [rest]. split; [constructor|]. destruct x; cbn; destruct prev; auto.
      + apply pbind_ok in E. destruct E as ([[nl dd] s4] & NE & E). injection E as <- <- <- <-.
        apply need_ok in O2. destruct O2 as [O4 NK]. cbn [need rest] in *.
        unfold nested in NE. cbn [rest okay] in NE. destruct r as [|t r]; [discriminate NE|].
        destruct (is_sym SCloseSq t) eqn:CS.
        * apply is_sym_eq in CS. subst t. injection NE as <- <- <-. cbn [rest]. split; [constructor|].
          split; [destruct prev; reflexivity|]. split; [destruct prev; reflexivity|]. intros a b [].
        * assert (NE' : list_loop n nil None None (mk_pst (t :: r) (okay s)) = POk (nl, dd, s4)).
          { destruct t as [[]| | |]; try exact NE; discriminate CS. }
          apply IH in NE'; [|exact O4|rewrite R2; discriminate|apply inv_nil].
          destruct NE' as (_ & m & pv & LV & -> & IM & y & IY & ->). cbn [app rest] in *.
          pose proof (inv_uniform _ _ IM) as U. destruct m as [|z m]; [destruct IY|].
          assert (CY : cell_class y = cell_class z).
          { apply (proj1 U); [exact IY | left; reflexivity]. }
          cbn [dscr]. rewrite <- CY. split; [constructor; assumption|]. split; [exact NK|]. split; [reflexivity|].
          cbn. exact (proj1 U).
      + destruct (fn_sig (mk_pst r (okay s))) as [f|] eqn:SG; [|discriminate E].
        destruct (call_fn f (mk_pst r (okay s))) as [[v|] s4] eqn:CF; [|discriminate E].
        injection E as <- <- <- <-. destruct (call_inv _ _ _ _ SG CF) as (_ & r' & RR & R' & FV). cbn [rest] in R'.
        subst r. rewrite RR. split; [constructor; exact FV|].
        destruct FV; cbn; destruct prev; auto.
    - pose proof (elem_other n prev s t r R A B C) as E2. rewrite elem_eq, R in E2. rewrite E2 in E. discriminate E. }
  destruct EL as (LV & NK & -> & EU). pose proof (inv_step _ _ _ IV EU SK NK) as IV'. rewrite R2 in LV.
  destruct stop.
  - injection H as <- <- <-. exists [c], (nested_next prev (dscr c)). split; [constructor; exact LV|].
    split; [reflexivity|]. split; [exact IV'|]. exists c. split; [left; reflexivity | reflexivity].
  - apply IH in H; [|exact O|exact RN|exact IV']. destruct H as (_ & m & pv & LVS & -> & IM & y & IY & ->).
    exists (c :: m), pv. split; [eapply lvs_more; eassumption|]. rewrite <- app_assoc in *. split; [reflexivity|].
    split; [exact IM|]. exists y. split; [right; exact IY | reflexivity].
Qed.

(** every list body is accepted *)
Lemma list_loop_ok :
  (forall t c r, lval t c r -> forall n prev, length t <= n ->
     exists s0, elem n prev (mk_pst t true) =
       POk (Some (c, nested_next prev (dscr c), mk_pst r (nested_ok prev (dscr c))), s0) /\ elem_uniform c) /\
  (forall t m r, lvals t m r -> forall n l o prev, length t < n -> inv l prev -> uniform (l ++ m) ->
     exists y, In y m /\ list_loop n l o prev (mk_pst t true) = POk (l ++ m, Some (cell_class y), mk_pst r true)).
Proof.
  apply lval_mut.
  - intros x r n prev L. rewrite elem_eq. cbn [rest okay]. eexists. split; [|destruct x; exact I].
    destruct x; cbn; destruct prev; reflexivity.
  - intros f c r F n prev L. rewrite elem_eq. cbn [rest okay]. unfold fn_sig. cbn [rest is_sym andb].
    rewrite (call_ok f r c true F). eexists. split; [|destruct F; exact I]. destruct F; cbn; destruct prev; reflexivity.
  - intros r n prev L. rewrite elem_eq. cbn [rest okay nested pbind]. eexists. split; [|intros a b []].
    unfold nested. cbn [rest]. destruct prev; reflexivity.
  - intros t l r LV IH U n prev L. rewrite elem_eq. cbn [rest okay]. unfold nested. cbn [rest okay length] in *.
    pose proof (lvals_head _ _ _ LV) as (x & t' & E & NC).
    destruct (IH n nil None None ltac:(lia) inv_nil U) as (y & IY & LE). cbn [app] in LE.
    assert (NE : match t with
       | nil => PPanic
       | TSym SCloseSq :: r' => POk (nil, None, mk_pst r' true)
       | _ => list_loop n nil None None (mk_pst t true)
       end = POk (l, Some (cell_class y), mk_pst r true)).
    { rewrite <- LE. rewrite E. destruct x as [[]| | |]; try reflexivity; discriminate NC. }
    rewrite NE. cbn [pbind]. eexists. split; [|exact (proj1 U)].
    destruct l as [|z l]; [destruct IY|]. cbn [dscr].
    replace (cell_class y) with (cell_class z) by (apply (proj1 U); [left; reflexivity | exact IY]).
    rewrite need_mk. reflexivity.
  - intros t c r LV IH n l o prev L IV U. exists c. split; [left; reflexivity|].
    destruct n as [|n]; [lia|]. rewrite list_loop_eq.
    pose proof (lval_head _ _ _ LV) as (x & t' & E & _).
    replace (going (mk_pst t true)) with true by (rewrite E; reflexivity). cbn [negb].
    destruct (IH n prev ltac:(lia)) as (s0 & EE & EU). rewrite EE. cbn [pbind].
    destruct (inv_accepts l prev c nil IV U) as [SK NK]. rewrite SK, NK, need_mk. cbn [andb]. cbn zeta.
    rewrite (after_close r SCloseSq eq_refl). reflexivity.
  - intros t c t' m r LV IH LVS IHS n l o prev L IV U.
    destruct n as [|n]; [lia|].
    pose proof (proj1 lval_prefix _ _ _ LV) as (u & EU1 & NU & _).
    assert (LT : length t' < n).
    { rewrite EU1, app_length in L. cbn [length] in L. lia. }
    destruct (IH n prev ltac:(lia)) as (s0 & EE & EU).
    destruct (inv_accepts l prev c m IV U) as [SK NK].
    destruct (IHS n (l ++ [c]) (Some (cell_class c)) (nested_next prev (dscr c)) LT) as (y & IY & LE).
    { apply inv_step; assumption. }
    { rewrite <- app_assoc. exact U. }
    exists y. split; [right; exact IY|]. rewrite list_loop_eq.
    pose proof (lval_head _ _ _ LV) as (x & t2 & E & _).
    replace (going (mk_pst t true)) with true by (rewrite E; reflexivity). cbn [negb].
    rewrite EE. cbn [pbind]. rewrite SK, NK, need_mk. cbn [andb]. cbn zeta.
    rewrite (after_comma t' SCloseSq eq_refl), LE, <- app_assoc. reflexivity.
Qed.

(** totality: a panic needs an opening bracket as the last token *)
Definition ends_open (ts : list token) : Prop := exists u, ts = u ++ [TSym SOpenSq].
Lemma ends_app u ts : ends_open ts -> ends_open (u ++ ts).
Proof. intros (v & ->). exists (u ++ v). apply app_assoc. Qed.
Lemma ends_cons t ts : ends_open ts -> ends_open (t :: ts).
Proof. apply (ends_app [t]). Qed.
Definition suffix (a b : list token) : Prop := exists u, b = u ++ a.
Lemma suffix_refl a : suffix a a.
Proof. exists nil. reflexivity. Qed.
Lemma suffix_trans a b c : suffix a b -> suffix b c -> suffix a c.
Proof. intros (u & ->) (v & ->). exists (v ++ u). apply app_assoc. Qed.
Lemma suffix_cons t a b : suffix a b -> suffix a (t :: b).
Proof. intros (u & ->). exists (t :: u). reflexivity. Qed.
Lemma suffix_skip n a : suffix (skipn n a) a.
Proof. exists (firstn n a). symmetry. apply firstn_skipn. Qed.
Lemma suffix_ends a b : suffix a b -> ends_open a -> ends_open b.
Proof. intros (u & ->). apply ends_app. Qed.
Lemma suffix_len a b : suffix a b -> length a <= length b.
Proof. intros (u & ->). rewrite app_length. lia. Qed.
Lemma after_suffix close s b s' : after_elem close s = (b, s') -> suffix (rest s') (rest s) /\
  (okay s' = true -> length (rest s') < length (rest s)).
Proof.
  unfold after_elem. intros H. injection H as _ <-. 
  match goal with |- context [ahead_if ?x _] => destruct x eqn:OX end.
  - cbn [ahead_if]. split; [apply suffix_skip|]. intros _. cbn [ahead need rest].
    rewrite skipn_length. apply need_ok in OX. destruct OX as [_ N]. unfold next_is in N.
    destruct (rest s); [discriminate N | cbn; lia].
  - cbn [ahead_if need rest]. split; [apply suffix_refl|]. intros X. cbn [need okay] in *. congruence.
Qed.

Definition good (r : pres (list cell * option tclass * pst)) (ts : list token) : Prop :=
  (exists l d s', r = POk (l, d, s') /\ suffix (rest s') ts) \/ (r = PPanic /\ ends_open ts).

Lemma list_loop_total n : forall l o prev s, length (rest s) < n -> good (list_loop n l o prev s) (rest s).
Proof.
  induction n as [|n IH]; intros l o prev s L; [lia|]. rewrite list_loop_eq.
  destruct (going s) eqn:G; cbn [negb].
  2:{ left. do 3 eexists. split; [reflexivity | apply suffix_refl]. }
  assert (EL : (elem n prev s = PPanic /\ ends_open (rest s)) \/
    (exists s1, elem n prev s = POk (None, s1) /\ suffix (rest s1) (rest s)) \/
    (exists c pv s1 s0, elem n prev s = POk (Some (c, pv, s1), s0) /\ suffix (rest s1) (rest s) /\ length (rest s1) < length (rest s))).
  { rewrite elem_eq. destruct (rest s) as [|t r] eqn:R; [unfold going in G; rewrite R in G; discriminate G|].
    destruct (vhead_dec t) as [V|(A & B & C)].
    - destruct V as [x| |].
      + right. right. do 4 eexists. split; [reflexivity|]. cbn [rest length]. split; [apply suffix_cons, suffix_refl | lia].
      + assert (NT : good (nested n (mk_pst r (okay s))) (TSym SOpenSq :: r)).
        { unfold nested. cbn [rest]. destruct r as [|t r].
          - right. split; [reflexivity|]. exists nil. reflexivity.
          - assert (GL : good (list_loop n nil None None (mk_pst (t :: r) (okay s))) (TSym SOpenSq :: t :: r)).
            { cbn [length] in L. destruct (IH nil None None (mk_pst (t :: r) (okay s))) as [(ll & dd & s' & E & S)|(E & S)].
              - cbn. lia.
              - left. exists ll, dd, s'. split; [exact E | apply suffix_cons; exact S].
              - right. split; [exact E | apply ends_cons; exact S]. }
            destruct t as [[]| | |]; try exact GL.
            left. do 3 eexists. split; [reflexivity|]. cbn [rest]. apply suffix_cons, suffix_cons, suffix_refl. }
        destruct NT as [(ll & dd & s' & E & S)|(E & S)]; rewrite E; cbn [pbind].
        * right. right. do 4 eexists. split; [reflexivity|]. cbn [need rest].
          split; [exact S|].
          assert (S2 : suffix (rest s') r).
          { unfold nested in E. cbn [rest okay] in E. destruct r as [|t r]; [discriminate E|].
            assert (GL : forall a b c, list_loop n nil None None (mk_pst (t :: r) (okay s)) = POk (a, b, c) -> suffix (rest c) (t :: r)).
            { intros a b c E2. cbn [length] in L. destruct (IH nil None None (mk_pst (t :: r) (okay s))) as [(ll2 & dd2 & s2 & E3 & S3)|(E3 & S3)].
              - cbn. lia.
              - rewrite E3 in E2. injection E2 as <- <- <-. exact S3.
              - congruence. }
            destruct t as [[]| | |]; try (eapply GL; exact E).
            injection E as <- <- <-. apply suffix_cons, suffix_refl. }
          apply suffix_len in S2. cbn [length]. lia.
        * left. split; [reflexivity | exact S].
      + destruct (fn_sig (mk_pst r (okay s))) as [f|] eqn:SG.
        2:{ right. left. eexists. split; [reflexivity|]. cbn [poison rest]. rewrite R. apply suffix_refl. }
        destruct (call_fn f (mk_pst r (okay s))) as [[v|] s4] eqn:CF.
        * right. right. do 4 eexists. split; [reflexivity|]. destruct (call_inv _ _ _ _ SG CF) as (_ & r' & RR & R' & _).
          cbn [rest] in R'. rewrite RR, R'. cbn [length]. split; [|lia].
          do 4 apply suffix_cons. apply suffix_refl.
        * right. left. eexists. split; [reflexivity|]. unfold ParseModel.call_fn in CF. injection CF as _ <-.
          cbn [poison ahead rest]. apply suffix_cons, suffix_skip.
    - right. left. exists (poison s). split; [|cbn [poison rest]; rewrite R; apply suffix_refl].
      pose proof (elem_other n prev s t r R A B C) as E2. rewrite elem_eq, R in E2. exact E2. }
  destruct EL as [(E & S)|[(s1 & E & S)|(c & pv & s1 & s0 & E & S & LS)]]; rewrite E; cbn [pbind].
  - right. split; [reflexivity | exact S].
  - left. do 3 eexists. split; [reflexivity | exact S].
  - cbn zeta. destruct (after_elem SCloseSq (need (same_kind l c) s1)) as [stop s3] eqn:AE.
    pose proof (after_suffix _ _ _ _ AE) as [S3 _]. cbn [need rest] in S3.
    pose proof (suffix_trans _ _ _ S3 S) as S4. pose proof (suffix_len _ _ S3).
    destruct stop; [left; do 3 eexists; split; [reflexivity | exact S4]|].
    destruct (IH (l ++ [c]) (Some (cell_class c)) pv s3) as [(ll & dd & s' & E3 & S5)|(E3 & S5)].
    + lia.
    + left. exists ll, dd, s'. split; [exact E3 | eapply suffix_trans; eassumption].
    + right. split; [exact E3 | eapply suffix_ends; eassumption].
Qed.

Lemma parse_list_eq s : parse_list s = nested (S (remaining s)) s.
Proof. reflexivity. Qed.
Lemma parse_list_inv s l d s' : parse_list s = POk (l, d, s') -> okay s' = true -> rest s' <> nil ->
  okay s = true /\ lval (TSym SOpenSq :: rest s) (CList l) (rest s').
Proof.
  rewrite parse_list_eq. unfold nested. destruct (rest s) as [|t r] eqn:R; [discriminate|].
  intros H O RN. destruct (is_sym SCloseSq t) eqn:CS.
  - apply is_sym_eq in CS. subst t. injection H as <- <- <-. split; [exact O | constructor].
  - assert (H' : list_loop (S (remaining s)) nil None None s = POk (l, d, s')).
    { destruct t as [[]| | |]; try exact H; discriminate CS. }
    apply list_loop_inv in H'; [|exact O|exact RN|apply inv_nil]. rewrite R in H'.
    destruct H' as (OS & m & pv & LV & -> & IM & _). split; [exact OS|]. constructor; [exact LV|].
    eapply inv_uniform. exact IM.
Qed.
Lemma parse_list_ok t l r : lval (TSym SOpenSq :: t) (CList l) r ->
  exists d, parse_list (mk_pst t true) = POk (l, d, mk_pst r true).
Proof.
  intros H. rewrite parse_list_eq. unfold nested, remaining. cbn [rest okay].
  inversion H as [| |r0 E1 E2|t0 l0 r0 LV U E1 E2]; subst.
  - exists None. reflexivity.
  - destruct (proj2 list_loop_ok _ _ _ LV (S (length t)) nil None None ltac:(lia) inv_nil U) as (y & _ & E).
    exists (Some (cell_class y)). cbn [app] in E. rewrite <- E.
    pose proof (lvals_head _ _ _ LV) as (x & t' & -> & NC). destruct x as [[]| | |]; try reflexivity; discriminate NC.
Qed.
Lemma parse_list_total s : rest s <> nil -> good (parse_list s) (rest s).
Proof.
  intros N. rewrite parse_list_eq. unfold nested. destruct (rest s) as [|t r] eqn:R; [congruence|].
  assert (GL : good (list_loop (S (remaining s)) nil None None s) (t :: r)).
  { rewrite <- R. apply list_loop_total. unfold remaining. lia. }
  destruct t as [[]| | |]; try exact GL.
  left. do 3 eexists. split; [reflexivity|]. cbn [rest]. apply suffix_cons, suffix_refl.
Qed.

(* ------------------------------------------------------------------ *)
(** * Values of a row *)

Inductive rhead : token -> Prop :=
| rh_val t : vhead t -> rhead t
| rh_null : rhead (kmis KmNull).
Lemma rhead_dec t : rhead t \/
  (is_lit t = false /\ is_sym SOpenSq t = false /\ is_sym SAt t = false /\ is_misc KmNull t = false).
Proof.
  destruct (vhead_dec t) as [V|(A & B & C)]; [left; constructor; exact V|].
  destruct (is_misc KmNull t) eqn:N; [|auto]. apply is_misc_eq in N. subst t. left. exact rh_null.
Qed.
Lemma tuple_other s t r : rest s = t :: r -> is_lit t = false -> is_sym SOpenSq t = false ->
  is_sym SAt t = false -> is_misc KmNull t = false -> tuple_elem s = POk (None, poison s).
Proof.
  intros R A B C D. unfold ParseModel.tuple_elem. rewrite R.
  destruct t as [[]|[k|[]]| |]; try discriminate; reflexivity.
Qed.
Lemma tuple_sq s r : rest s = TSym SOpenSq :: r -> tuple_elem s =
  match r with
  | nil => POk (None, poison s)
  | _ => pbind (parse_list (mk_pst r (okay s))) (fun x => let '(l, _, s1) := x in POk (Some (CList l), s1))
  end.
Proof. intros R. unfold ParseModel.tuple_elem. rewrite R. destruct r; reflexivity. Qed.

Lemma tuple_elem_inv s c s' : tuple_elem s = POk (Some c, s') -> okay s' = true -> rest s' <> nil ->
  okay s = true /\ rval (rest s) c (rest s').
Proof.
  intros H O RN. destruct (rest s) as [|t r] eqn:R.
  { unfold ParseModel.tuple_elem in H. rewrite R in H. discriminate H. }
  destruct (rhead_dec t) as [V|(A & B & C & D)].
  2:{ rewrite (tuple_other s t r R A B C D) in H. discriminate H. }
  destruct V as [t V|].
  - destruct V as [x| |].
    + unfold ParseModel.tuple_elem in H. rewrite R in H. injection H as <- <-. split; [exact O|].
      apply rv_val. constructor.
    + rewrite (tuple_sq s r R) in H. destruct r as [|t r]; [discriminate H|].
      apply pbind_ok in H. destruct H as ([[l d] s1] & P & H). injection H as <- <-.
      apply parse_list_inv in P; [|exact O|exact RN]. destruct P as (OS & LV). split; [exact OS|].
      apply rv_val. exact LV.
    + unfold ParseModel.tuple_elem in H. rewrite R in H.
      destruct (fn_sig (mk_pst r (okay s))) as [f|] eqn:SG; [|discriminate H].
      destruct (call_fn f (mk_pst r (okay s))) as [[v|] s4] eqn:CF; [|discriminate H].
      injection H as <- <-. destruct (call_inv _ _ _ _ SG CF) as (OE & r' & RR & R' & FV). cbn [rest okay] in *.
      split; [congruence|]. subst r. rewrite RR. apply rv_val. constructor. exact FV.
  - unfold ParseModel.tuple_elem in H. rewrite R in H. injection H as <- <-. split; [exact O|]. constructor.
Qed.
Lemma tuple_elem_none s s' : tuple_elem s = POk (None, s') -> okay s' = false /\ suffix (rest s') (rest s).
Proof.
  intros H. destruct (rest s) as [|t r] eqn:R.
  { unfold ParseModel.tuple_elem in H. rewrite R in H. discriminate H. }
  assert (PS : POk (None, poison s) = @POk (option cell * pst) (None, s') -> okay s' = false /\ suffix (rest s') (t :: r)).
  { intros E. injection E as <-. cbn. rewrite R. split; [reflexivity | apply suffix_refl]. }
  destruct (rhead_dec t) as [V|(A & B & C & D)].
  2:{ rewrite (tuple_other s t r R A B C D) in H. auto. }
  destruct V as [t V|].
  - destruct V as [x| |].
    + unfold ParseModel.tuple_elem in H. rewrite R in H. discriminate H.
    + rewrite (tuple_sq s r R) in H. destruct r as [|t r]; [auto|].
      apply pbind_ok in H. destruct H as ([[l d] s1] & P & H). discriminate H.
    + unfold ParseModel.tuple_elem in H. rewrite R in H.
      destruct (fn_sig (mk_pst r (okay s))) as [f|] eqn:SG; [|auto].
      destruct (call_fn f (mk_pst r (okay s))) as [[v|] s4] eqn:CF; [discriminate H|].
      injection H as <-. split; [reflexivity|]. unfold ParseModel.call_fn in CF. injection CF as _ <-.
      cbn [poison ahead rest]. apply suffix_cons, suffix_skip.
  - unfold ParseModel.tuple_elem in H. rewrite R in H. discriminate H.
Qed.
Lemma tuple_elem_ok t c r : rval t c r -> tuple_elem (mk_pst t true) = POk (Some c, mk_pst r true).
Proof.
  intros [r0|t0 c0 r0 LV]; [reflexivity|].
  inversion LV as [x r1 E1 E2|f c1 r1 F E1 E2|r1 E1 E2|t1 l r1 LV' U E1 E2]; subst.
  - reflexivity.
  - unfold ParseModel.tuple_elem. cbn [rest okay]. unfold fn_sig. cbn [rest is_sym andb].
    rewrite (call_ok f r0 c0 true F). reflexivity.
  - reflexivity.
  - destruct (parse_list_ok _ _ _ LV) as (d & P).
    rewrite (tuple_sq (mk_pst (TSym SOpenSq :: t1) true) t1 eq_refl). pose proof (lvals_head _ _ _ LV') as (x & t' & -> & _).
    cbn [okay]. rewrite P. reflexivity.
Qed.
Lemma tuple_elem_total s : rest s <> nil ->
  (tuple_elem s = PPanic /\ ends_open (rest s)) \/
  (exists x s', tuple_elem s = POk (x, s') /\ suffix (rest s') (rest s) /\ (x <> None -> length (rest s') < length (rest s))).
Proof.
  intros N. destruct (rest s) as [|t r] eqn:R; [congruence|].
  assert (PS : suffix (rest (poison s)) (t :: r)) by (cbn; rewrite R; apply suffix_refl).
  destruct (rhead_dec t) as [V|(A & B & C & D)].
  2:{ right. do 2 eexists. split; [apply (tuple_other s t r R A B C D)|]. split; [exact PS | congruence]. }
  destruct V as [t V|].
  - destruct V as [x| |].
    + right. unfold ParseModel.tuple_elem. rewrite R. do 2 eexists. split; [reflexivity|]. cbn [rest length].
      split; [apply suffix_cons, suffix_refl | lia].
    + rewrite (tuple_sq s r R). destruct r as [|t r].
      { right. do 2 eexists. split; [reflexivity|]. split; [exact PS | congruence]. }
      destruct (parse_list_total (mk_pst (t :: r) (okay s)) ltac:(discriminate)) as [(l & d & s' & E & S)|(E & S)];
        rewrite E; cbn [pbind].
      * right. do 2 eexists. split; [reflexivity|]. split; [apply suffix_cons; exact S|]. intros _.
        apply suffix_len in S. cbn [rest length] in *. lia.
      * left. split; [reflexivity | apply ends_cons; exact S].
    + unfold ParseModel.tuple_elem. rewrite R.
      destruct (fn_sig (mk_pst r (okay s))) as [f|] eqn:SG.
      2:{ right. do 2 eexists. split; [reflexivity|]. split; [exact PS | congruence]. }
      destruct (call_fn f (mk_pst r (okay s))) as [[v|] s4] eqn:CF.
      * right. do 2 eexists. split; [reflexivity|]. destruct (call_inv _ _ _ _ SG CF) as (_ & r' & RR & R' & _).
        cbn [rest] in R'. rewrite RR, R'. cbn [length]. split; [do 4 apply suffix_cons; apply suffix_refl | lia].
      * right. do 2 eexists. split; [reflexivity|]. unfold ParseModel.call_fn in CF. injection CF as _ <-.
        cbn [poison ahead rest]. split; [apply suffix_cons, suffix_skip | congruence].
  - right. unfold ParseModel.tuple_elem. rewrite R. do 2 eexists. split; [reflexivity|]. cbn [rest length].
    split; [apply suffix_cons, suffix_refl | lia].
Qed.

(* ------------------------------------------------------------------ *)
(** * Tuples *)

Lemma tuple_loop_inv n : forall data s data' s', tuple_loop n data s = POk (data', s') ->
  okay s' = true -> rest s' = nil ->
  okay s = true /\ exists m, data' = data ++ m /\
    ((m = nil /\ rest s = nil) \/ tvals (rest s) m \/
     (exists u, rest s = u ++ [TSym SComma] /\ tvals (u ++ [TSym SCloseParen]) m)).
Proof.
  induction n as [|n IH]; intros data s data' s' H O RN; [discriminate H|]. cbn [ParseModel.tuple_loop] in H.
  destruct (going s) eqn:G; cbn [negb] in H.
  2:{ injection H as <- <-. split; [exact O|]. exists nil. rewrite app_nil_r. auto. }
  assert (OS : okay s = true) by (unfold going in G; destruct (rest s); [discriminate G | exact G]).
  split; [exact OS|]. apply pbind_ok in H. destruct H as ([x s1] & E & H).
  destruct x as [c|].
  2:{ exfalso. injection H as <- <-. apply tuple_elem_none in E. destruct E as [E _]. congruence. }
  destruct (after_elem SCloseParen s1) as [stop s2] eqn:AE.
  assert (O2 : okay s2 = true).
  { destruct stop; [injection H as <- <-; exact O|]. destruct (okay s2) eqn:X; [reflexivity|].
    exfalso. destruct n; [discriminate H|]. cbn [ParseModel.tuple_loop] in H. unfold going in H. rewrite X in H.
    destruct (rest s2); injection H as <- <-; congruence. }
  destruct (after_elem_inv SCloseParen _ _ _ eq_refl AE O2) as (O1 & R1).
  apply tuple_elem_inv in E; [|exact O1|rewrite R1; discriminate]. destruct E as (_ & RV). rewrite R1 in RV.
  destruct stop.
  - injection H as <- <-. exists [c]. split; [reflexivity|]. right. left. rewrite RN in RV. constructor. exact RV.
  - apply IH in H; [|exact O|exact RN]. destruct H as (_ & m & -> & D). exists (c :: m).
    rewrite <- app_assoc. split; [reflexivity|]. right.
    destruct D as [(-> & R2)|[D|(u & R2 & D)]].
    + right. rewrite R2 in RV. apply rval_prefix in RV. destruct RV as (u & -> & _ & RV). exists u.
      split; [reflexivity|]. constructor. apply RV. reflexivity.
    + left. eapply tvs_more; eassumption.
    + right. rewrite R2 in RV. apply rval_prefix in RV. destruct RV as (v & -> & _ & RV).
      exists (v ++ TSym SComma :: u). rewrite <- app_assoc. split; [reflexivity|]. rewrite <- app_assoc. cbn [app].
      eapply tvs_more; [apply RV|exact D]. cbn [length]. rewrite !app_length. reflexivity.
Qed.
Lemma tvals_nonempty t m : tvals t m -> t <> nil /\ m <> nil.
Proof.
  intros H. destruct H as [t c H|t c t' l H _]; apply rval_prefix in H; destruct H as (u & -> & N & _);
    (split; [destruct u; [congruence | discriminate] | discriminate]).
Qed.
Lemma rval_head t c r : rval t c r -> exists x t', t = x :: t' /\ is_sym SCloseParen x = false.
Proof.
  intros [r0|t0 c0 r0 LV]; [do 2 eexists; split; reflexivity|].
  apply lval_head in LV. destruct LV as (x & t' & -> & _ & N & _). eauto.
Qed.
Lemma tvals_head t m : tvals t m -> exists x t', t = x :: t' /\ is_sym SCloseParen x = false.
Proof. intros H. destruct H as [t c H|t c t' l H _]; apply rval_head in H; exact H. Qed.
Lemma going_ne t : t <> nil -> going (mk_pst t true) = true.
Proof. destruct t; [congruence | reflexivity]. Qed.
Lemma rval_ne t c r : rval t c r -> t <> nil.
Proof. intros H. apply rval_prefix in H. destruct H as (u & -> & N & _). destruct u; [congruence | discriminate]. Qed.
Lemma rval_len t c r : rval t c r -> length r < length t.
Proof.
  intros H. apply rval_prefix in H. destruct H as (u & -> & N & _). rewrite app_length.
  destruct u; [congruence | cbn; lia].
Qed.

Lemma tuple_loop_ok t m : tvals t m -> forall n data, length t < n ->
  tuple_loop n data (mk_pst t true) = POk (data ++ m, mk_pst nil true).
Proof.
  induction 1 as [t c H|t c t' l H _ IH]; intros n data L; (destruct n as [|n]; [lia|]);
    cbn [ParseModel.tuple_loop]; rewrite (going_ne t (rval_ne _ _ _ H)); cbn [negb];
    rewrite (tuple_elem_ok _ _ _ H); cbn [pbind].
  - rewrite (after_close nil SCloseParen eq_refl). reflexivity.
  - rewrite (after_comma t' SCloseParen eq_refl). pose proof (rval_len _ _ _ H) as L2. cbn [length] in L2.
    rewrite IH by lia. rewrite <- app_assoc. reflexivity.
Qed.
Lemma tuple_loop_cut t m : tvals t m -> forall u n data, t = u ++ [TSym SCloseParen] -> length t < n ->
  tuple_loop n data (mk_pst (u ++ [TSym SComma]) true) = POk (data ++ m, mk_pst nil true).
Proof.
  induction 1 as [t c H|t c t' l H T IH]; intros u n data E L; (destruct n as [|n]; [lia|]);
    cbn [ParseModel.tuple_loop]; (rewrite going_ne by (destruct u; discriminate)); cbn [negb].
  - pose proof (rval_prefix _ _ _ H) as (v & E2 & NV & H2). rewrite E2 in E.
    apply app_inj_tail in E. destruct E as [<- _].
    rewrite (tuple_elem_ok _ _ _ (H2 [TSym SComma] eq_refl)). cbn [pbind].
    rewrite (after_comma nil SCloseParen eq_refl).
    destruct n as [|n]; [rewrite E2, app_length in L; destruct v; [congruence | cbn in L; lia]|].
    reflexivity.
  - pose proof (rval_prefix _ _ _ H) as (v & E2 & NV & H2). pose proof (tvals_nonempty _ _ T) as [NT _].
    destruct (exists_last NT) as (t2 & z & ->). rewrite E2 in E.
    assert (EE : (v ++ TSym SComma :: t2) ++ [z] = u ++ [TSym SCloseParen]).
    { rewrite <- app_assoc. exact E. }
    apply app_inj_tail in EE. destruct EE as [<- ->].
    rewrite <- app_assoc. cbn [app].
    assert (H3 : rval (v ++ TSym SComma :: t2 ++ [TSym SComma]) c (TSym SComma :: t2 ++ [TSym SComma])).
    { apply H2. cbn [length]. rewrite !app_length. reflexivity. }
    rewrite (tuple_elem_ok _ _ _ H3). cbn [pbind]. rewrite (after_comma _ SCloseParen eq_refl).
    rewrite (IH t2); [rewrite <- app_assoc; reflexivity | reflexivity|].
    rewrite E2, !app_length in L. cbn [length] in *. rewrite app_length in *. cbn [length] in *. lia.
Qed.

Definition good2 {A} (r : pres (A * pst)) (ts : list token) : Prop :=
  (exists x s', r = POk (x, s')) \/ (r = PPanic /\ ends_open ts).
Lemma tuple_loop_total n : forall data s, length (rest s) < n -> good2 (tuple_loop n data s) (rest s).
Proof.
  induction n as [|n IH]; intros data s L; [lia|]. cbn [ParseModel.tuple_loop].
  destruct (going s) eqn:G; cbn [negb]; [|left; eauto].
  assert (NR : rest s <> nil) by (unfold going in G; destruct (rest s); [discriminate G | discriminate]).
  destruct (tuple_elem_total s NR) as [(E & S)|(x & s1 & E & S & LS)]; rewrite E; cbn [pbind].
  - right. auto.
  - destruct x as [c|]; [|left; eauto]. specialize (LS ltac:(discriminate)).
    destruct (after_elem SCloseParen s1) as [stop s2] eqn:AE. destruct stop; [left; eauto|].
    pose proof (after_suffix _ _ _ _ AE) as [S2 _]. pose proof (suffix_len _ _ S2).
    destruct (IH (data ++ [c]) s2 ltac:(lia)) as [(y & s3 & E3)|(E3 & S3)].
    + left. eauto.
    + right. split; [exact E3|]. eapply suffix_ends; [|exact S3]. eapply suffix_trans; eassumption.
Qed.

(* ------------------------------------------------------------------ *)
(** * Maps *)

(** a value of a map is a value of a tuple *)
Lemma map_value_rel s0 t s : 
  (exists c s1, tuple_elem (mk_pst (t :: rest s) (okay s)) = POk (Some c, s1) /\ map_value s0 t s = POk (Some c, s1)) \/
  (exists s1 s2, tuple_elem (mk_pst (t :: rest s) (okay s)) = POk (None, s1) /\ map_value s0 t s = POk (None, s2) /\ okay s2 = false) \/
  (tuple_elem (mk_pst (t :: rest s) (okay s)) = PPanic /\ map_value s0 t s = PPanic).
Proof.
  set (s' := mk_pst (t :: rest s) (okay s)). assert (ES : mk_pst (rest s) (okay s) = s) by (destruct s; reflexivity).
  destruct (rhead_dec t) as [V|(A & B & C & D)].
  2:{ right. left. rewrite (tuple_other s' t (rest s) eq_refl A B C D). eexists. exists (poison s0).
      split; [reflexivity|]. split; [|reflexivity].
      unfold ParseModel.map_value. destruct t as [[]|[k|[]]| |]; try discriminate; reflexivity. }
  destruct V as [t V|].
  - destruct V as [x| |].
    + left. subst s'. unfold ParseModel.tuple_elem, ParseModel.map_value. cbn [rest okay]. rewrite ES. eauto.
    + unfold ParseModel.map_value. rewrite (tuple_sq s' (rest s) eq_refl). subst s'. cbn [okay]. rewrite ES.
      destruct (rest s) as [|t r] eqn:R.
      { right. left. do 2 eexists. split; [reflexivity|]. split; reflexivity. }
      destruct (parse_list_total s) as [(l & d & s1 & E & _)|(E & _)]; [rewrite R; discriminate| |];
        rewrite E; cbn [pbind].
      * left. eauto.
      * right. right. auto.
    + subst s'. unfold ParseModel.tuple_elem, ParseModel.map_value. cbn [rest okay]. rewrite ES.
      destruct (fn_sig s) as [f|] eqn:SG.
      2:{ right. left. do 2 eexists. split; [reflexivity|]. split; reflexivity. }
      destruct (call_fn f s) as [[v|] s4] eqn:CF.
      * left. eauto.
      * right. left. do 2 eexists. split; [reflexivity|]. split; reflexivity.
  - left. subst s'. unfold ParseModel.tuple_elem, ParseModel.map_value. cbn [rest okay]. rewrite ES. do 2 eexists. split; reflexivity.
Qed.

Lemma map_loop_inv n : forall data s data' s', map_loop n data s = POk (data', s') ->
  okay s' = true -> rest s' = nil -> NoDup (keys data) ->
  okay s = true /\ exists m, data' = data ++ m /\ NoDup (keys data') /\
    ((m = nil /\ rest s = nil) \/ mvals (rest s) m \/
     (exists u, rest s = u ++ [TSym SComma] /\ mvals (u ++ [TSym SCloseBrace]) m)).
Proof.
  induction n as [|n IH]; intros data s data' s' H O RN ND; [discriminate H|]. cbn [ParseModel.map_loop] in H.
  assert (STOP : POk (data, s) = POk (data', s') -> okay s = true /\ exists m, data' = data ++ m /\ NoDup (keys data') /\
    ((m = nil /\ rest s = nil) \/ mvals (rest s) m \/
     (exists u, rest s = u ++ [TSym SComma] /\ mvals (u ++ [TSym SCloseBrace]) m))).
  { intros E. injection E as <- <-. split; [exact O|]. exists nil. rewrite app_nil_r. auto. }
  destruct (rest s) as [|field [|colon [|expr r]]] eqn:R; try (apply STOP; exact H). clear STOP.
  destruct (okay s) eqn:OS; cbn [negb] in H.
  2:{ injection H as <- <-. congruence. }
  split; [reflexivity|]. destruct field as [| |k|]; try (injection H as <- <-; discriminate O).
  apply pbind_ok in H. destruct H as ([x s2] & E & H).
  set (s1 := need (is_sym SColon colon) (mk_pst r true)) in E.
  destruct (map_value_rel (poison s) expr s1) as [(c & sv & TE & ME)|[(sv & sw & _ & ME & OW)|(_ & ME)]];
    rewrite ME in E; [|injection E as <- <-; injection H as <- <-; congruence|discriminate E].
  injection E as <- <-. cbn zeta in H.
  destruct (after_elem SCloseBrace (need (negb (has_key k data)) sv)) as [stop s4] eqn:AE.
  assert (O4 : okay s4 = true).
  { destruct stop; [injection H as <- <-; exact O|]. destruct (okay s4) eqn:X; [reflexivity|].
    exfalso. destruct n; [discriminate H|]. cbn [ParseModel.map_loop] in H. rewrite X in H. cbn [negb] in H.
    destruct (rest s4) as [|? [|? [|? ?]]]; injection H as <- <-; congruence. }
  destruct (after_elem_inv SCloseBrace _ _ _ eq_refl AE O4) as (O3 & R3). apply need_ok in O3. destruct O3 as [O3 HK].
  apply negb_true_iff in HK. apply has_key_not in HK. cbn [need rest] in R3.
  apply tuple_elem_inv in TE; [|exact O3|rewrite R3; discriminate]. destruct TE as (O1 & RV). cbn [okay rest] in O1, RV.
  subst s1. cbn [need okay rest andb] in O1, RV. apply is_sym_eq in O1. subst colon. rewrite R3 in RV.
  assert (ND2 : NoDup (keys (data ++ [(k, c)]))) by (rewrite keys_app; apply nodup_snoc; auto).
  destruct stop.
  - injection H as <- <-. exists [(k, c)]. split; [reflexivity|]. split; [exact ND2|]. right. left.
    rewrite RN in RV. constructor. exact RV.
  - apply IH in H; [|exact O|exact RN|exact ND2]. destruct H as (_ & m & -> & ND3 & D). exists ((k, c) :: m).
    rewrite <- app_assoc in *. split; [reflexivity|]. split; [exact ND3|]. right.
    destruct D as [(-> & R4)|[D|(u & R4 & D)]].
    + right. rewrite R4 in RV. apply rval_prefix in RV. destruct RV as (u & -> & _ & RV).
      exists (TId k :: TSym SColon :: u). split; [reflexivity|]. cbn [app]. constructor. apply RV. reflexivity.
    + left. eapply mvs_more; eassumption.
    + right. rewrite R4 in RV. apply rval_prefix in RV. destruct RV as (v & -> & _ & RV).
      exists (TId k :: TSym SColon :: v ++ TSym SComma :: u). cbn [app]. rewrite <- app_assoc. split; [reflexivity|].
      rewrite <- app_assoc. cbn [app]. eapply mvs_more; [apply RV|exact D]. cbn [length]. rewrite !app_length. reflexivity.
Qed.

Lemma mvals_nonempty t m : mvals t m -> t <> nil /\ m <> nil.
Proof. intros H. destruct H; split; discriminate. Qed.
Lemma mvals_head t m : mvals t m -> exists x t', t = x :: t' /\ is_sym SCloseBrace x = false.
Proof. intros H. destruct H; do 2 eexists; split; reflexivity. Qed.

(** one entry of a map *)
Lemma map_entry n data k t c r : rval t c r -> ~ In k (keys data) ->
  map_loop (S n) data (mk_pst (TId k :: TSym SColon :: t) true) =
  let '(stop, s4) := after_elem SCloseBrace (mk_pst r true) in
  if stop then POk (data ++ [(k, c)], s4) else map_loop n (data ++ [(k, c)]) s4.
Proof.
  intros H NI. cbn [ParseModel.map_loop rest okay]. destruct t as [|x t]; [exfalso; apply (rval_ne _ _ _ H); reflexivity|].
  cbn [negb]. rewrite need_mk. cbn [is_sym andb].
  pose proof (tuple_elem_ok _ _ _ H) as TE.
  set (s0 := poison (mk_pst (TId k :: TSym SColon :: x :: t) true)).
  destruct (map_value_rel s0 x (mk_pst t true)) as [(c' & sv & TE2 & ME)|[(sv & sw & TE2 & ME & OW)|(TE2 & ME)]];
    cbn [rest okay] in TE2; rewrite TE in TE2; try discriminate TE2. injection TE2 as <- <-.
  rewrite ME. cbn [pbind]. apply has_key_not in NI. rewrite NI. reflexivity.
Qed.
Lemma map_loop_ok t m : mvals t m -> forall n data, length t < n -> NoDup (keys (data ++ m)) ->
  map_loop n data (mk_pst t true) = POk (data ++ m, mk_pst nil true).
Proof.
  induction 1 as [k t c H|k t c t' l H _ IH]; intros n data L ND; (destruct n as [|n]; [lia|]);
    (assert (NI : ~ In k (keys data)) by (rewrite keys_app in ND; cbn in ND; apply NoDup_remove_2 in ND;
       intros I; apply ND; apply in_or_app; left; exact I));
    rewrite (map_entry n data k t c _ H NI).
  - rewrite (after_close nil SCloseBrace eq_refl). reflexivity.
  - rewrite (after_comma t' SCloseBrace eq_refl). pose proof (rval_len _ _ _ H) as L2. cbn [length] in *.
    rewrite IH; [rewrite <- app_assoc; reflexivity | lia | rewrite <- app_assoc; exact ND].
Qed.
Lemma map_loop_cut t m : mvals t m -> forall u n data, t = u ++ [TSym SCloseBrace] -> length t < n ->
  NoDup (keys (data ++ m)) ->
  map_loop n data (mk_pst (u ++ [TSym SComma]) true) = POk (data ++ m, mk_pst nil true).
Proof.
  induction 1 as [k t c H|k t c t' l H T IH]; intros u n data E L ND; (destruct n as [|n]; [lia|]);
    (assert (NI : ~ In k (keys data)) by (rewrite keys_app in ND; cbn in ND; apply NoDup_remove_2 in ND;
       intros I; apply ND; apply in_or_app; left; exact I)).
  - pose proof (rval_prefix _ _ _ H) as (v & E2 & NV & H2). rewrite E2 in E.
    change (TId k :: TSym SColon :: v ++ [TSym SCloseBrace]) with ((TId k :: TSym SColon :: v) ++ [TSym SCloseBrace]) in E.
    apply app_inj_tail in E. destruct E as [<- _]. cbn [app].
    rewrite (map_entry n data k _ c _ (H2 [TSym SComma] eq_refl) NI).
    rewrite (after_comma nil SCloseBrace eq_refl). destruct n; [cbn [length] in L; lia|]. reflexivity.
  - pose proof (rval_prefix _ _ _ H) as (v & E2 & NV & H2). pose proof (mvals_nonempty _ _ T) as [NT _].
    destruct (exists_last NT) as (t2 & z & ->). rewrite E2 in E.
    assert (EE : (TId k :: TSym SColon :: v ++ TSym SComma :: t2) ++ [z] = u ++ [TSym SCloseBrace]).
    { cbn [app]. rewrite <- app_assoc. exact E. }
    apply app_inj_tail in EE. destruct EE as [<- ->]. cbn [app]. rewrite <- app_assoc. cbn [app].
    assert (H3 : rval (v ++ TSym SComma :: t2 ++ [TSym SComma]) c (TSym SComma :: t2 ++ [TSym SComma])).
    { apply H2. cbn [length]. rewrite !app_length. reflexivity. }
    rewrite (map_entry n data k _ c _ H3 NI). rewrite (after_comma _ SCloseBrace eq_refl).
    rewrite (IH t2); [rewrite <- app_assoc; reflexivity | reflexivity | | rewrite <- app_assoc; exact ND].
    cbn [length] in L. rewrite E2, !app_length in L. cbn [length] in *. rewrite app_length in *. cbn [length] in *. lia.
Qed.
Lemma map_loop_total n : forall data s, length (rest s) < n -> good2 (map_loop n data s) (rest s).
Proof.
  induction n as [|n IH]; intros data s L; [lia|]. cbn [ParseModel.map_loop].
  destruct (rest s) as [|field [|colon [|expr r]]] eqn:R; try (left; eauto; fail).
  destruct (negb (okay s)); [left; eauto|]. destruct field as [| |k|]; try (left; eauto; fail).
  set (s1 := need (is_sym SColon colon) (mk_pst r (okay s))).
  destruct (tuple_elem_total (mk_pst (expr :: rest s1) (okay s1)) ltac:(discriminate)) as [(TE & S)|(x & sv & TE & S & LS)];
  destruct (map_value_rel (poison s) expr s1) as [(c & sv' & TE2 & ME)|[(sv' & sw & TE2 & ME & OW)|(TE2 & ME)]];
    rewrite TE in TE2; try discriminate TE2; rewrite ME; cbn [pbind].
  - right. split; [reflexivity|]. do 2 apply ends_cons. exact S.
  - injection TE2 as -> ->. specialize (LS ltac:(discriminate)).
    destruct (after_elem SCloseBrace (need (negb (has_key k data)) sv')) as [stop s4] eqn:AE.
    destruct stop; [left; eauto|]. pose proof (after_suffix _ _ _ _ AE) as [S2 _]. cbn [need rest] in S2.
    pose proof (suffix_len _ _ S2). subst s1. cbn [rest need length] in *.
    destruct (IH (data ++ [(k, c)]) s4 ltac:(lia)) as [(y & s3 & E3)|(E3 & S3)].
    + left. eauto.
    + right. split; [exact E3|]. do 2 apply ends_cons. eapply suffix_ends; [|exact S3].
      eapply suffix_trans; eassumption.
  - left. eauto.
Qed.

(* ------------------------------------------------------------------ *)
(** * INSERT *)

(** the data has something in it *)
Definition some_data (d : insdata) : Prop := d <> InsTuple nil /\ d <> InsMap nil.

Definition data_ok (d : insdata) (t : list token) : Prop :=
  wf_data t d \/ (some_data d /\ exists u, t = u ++ [TSym SComma] /\ wf_data (u ++ [close_of d]) d).

Lemma parse_tuple_inv s d s' : parse_tuple s = POk (d, s') -> okay s' = true -> rest s' = nil ->
  okay s = true /\ data_ok (InsTuple d) (TSym SOpenParen :: rest s).
Proof.
  unfold ParseModel.parse_tuple. intros H O RN. apply pbind_ok in H. destruct H as (b & C & H).
  apply cur_is_ok in C. destruct C as (t & r & R & ->). destruct (is_sym SCloseParen t) eqn:CP.
  - apply is_sym_eq in CP. subst t. injection H as <- <-. cbn [ahead rest okay] in *. rewrite R in *. cbn [skipn] in RN.
    subst r. split; [exact O|]. left. constructor.
  - apply tuple_loop_inv in H; [|exact O|exact RN]. destruct H as (OS & m & -> & D). split; [exact OS|]. cbn [app].
    destruct D as [(_ & E)|[D|(u & E & D)]].
    + congruence.
    + left. constructor. exact D.
    + right. pose proof (tvals_nonempty _ _ D) as [_ NM]. split; [split; congruence|].
      exists (TSym SOpenParen :: u). rewrite E. split; [reflexivity|]. cbn [app]. constructor. exact D.
Qed.
Lemma parse_map_inv s d s' : parse_map s = POk (d, s') -> okay s' = true -> rest s' = nil ->
  okay s = true /\ data_ok (InsMap d) (TSym SOpenBrace :: rest s).
Proof.
  unfold ParseModel.parse_map. intros H O RN. apply pbind_ok in H. destruct H as (b & C & H).
  apply cur_is_ok in C. destruct C as (t & r & R & ->). destruct (is_sym SCloseBrace t) eqn:CP.
  - apply is_sym_eq in CP. subst t. injection H as <- <-. cbn [ahead rest okay] in *. rewrite R in *. cbn [skipn] in RN.
    subst r. split; [exact O|]. left. constructor.
  - apply map_loop_inv in H; [|exact O|exact RN|constructor]. destruct H as (OS & m & -> & ND & D). split; [exact OS|]. cbn [app] in *.
    destruct D as [(_ & E)|[D|(u & E & D)]].
    + congruence.
    + left. constructor; [exact D | exact ND].
    + right. pose proof (mvals_nonempty _ _ D) as [_ NM]. split; [split; congruence|].
      exists (TSym SOpenBrace :: u). rewrite E. split; [reflexivity|]. cbn [app]. constructor; [exact D | exact ND].
Qed.

(** the data, as [parse_insert] dispatches on it *)
Definition parse_data (t : token) (s : pst) : pres (insdata * pst) :=
  match t with
  | TSym SOpenParen => pbind (parse_tuple s) (fun '(d, s) => POk (InsTuple d, s))
  | TSym SOpenBrace => pbind (parse_map s) (fun '(d, s) => POk (InsMap d, s))
  | _ => PErr ESyntax
  end.
Lemma data_ok_parse d t ts : data_ok d (t :: ts) ->
  ts <> nil /\ no_dot (t :: ts) /\ parse_data t (mk_pst ts true) = POk (d, mk_pst nil true).
Proof.
  intros [W|((N1 & N2) & u & E & W)].
  - inversion W as [E1 E2|t0 l H E1 E2|E1 E2|t0 l H ND E1 E2]; subst; cbn [parse_data].
    + split; [discriminate|]. split; reflexivity.
    + pose proof (tvals_nonempty _ _ H) as [NT _]. split; [exact NT|]. split; [reflexivity|].
      unfold ParseModel.parse_tuple. pose proof (tvals_head _ _ H) as (x & t' & -> & NC). unfold cur_is. cbn [rest pbind].
      rewrite NC. unfold remaining. cbn [rest]. rewrite (tuple_loop_ok _ _ H) by lia. reflexivity.
    + split; [discriminate|]. split; reflexivity.
    + pose proof (mvals_nonempty _ _ H) as [NT _]. split; [exact NT|]. split; [reflexivity|].
      unfold ParseModel.parse_map. pose proof (mvals_head _ _ H) as (x & t' & -> & NC). unfold cur_is. cbn [rest pbind].
      rewrite NC. unfold remaining. cbn [rest]. rewrite (map_loop_ok _ _ H) by (try exact ND; lia). reflexivity.
  - destruct u as [|t0 u].
    { exfalso. cbn in E. injection E as -> ->. cbn in W. inversion W; subst; cbn in *; congruence. }
    cbn [app] in E, W. injection E as <- ->.
    split; [destruct u; discriminate|].
    inversion W as [E1 E2|t0 l H E1 E2|E1 E2|t0 l H ND E1 E2]; subst; cbn [parse_data close_of] in *; try congruence.
    + split; [reflexivity|]. unfold ParseModel.parse_tuple.
      pose proof (tvals_head _ _ H) as (x & t' & E & NC).
      assert (CI : cur_is (is_sym SCloseParen) (mk_pst (u ++ [TSym SComma]) true) = POk false).
      { destruct u as [|y u]; [reflexivity|]. cbn in E. injection E as -> _. unfold cur_is. cbn [rest app]. rewrite NC. reflexivity. }
      rewrite CI. cbn [pbind]. unfold remaining. cbn [rest].
      rewrite (tuple_loop_cut _ _ H u); [reflexivity|reflexivity|rewrite !app_length; cbn; lia].
    + split; [reflexivity|]. unfold ParseModel.parse_map.
      pose proof (mvals_head _ _ H) as (x & t' & E & NC).
      assert (CI : cur_is (is_sym SCloseBrace) (mk_pst (u ++ [TSym SComma]) true) = POk false).
      { destruct u as [|y u]; [reflexivity|]. cbn in E. injection E as -> _. unfold cur_is. cbn [rest app]. rewrite NC. reflexivity. }
      rewrite CI. cbn [pbind]. unfold remaining. cbn [rest].
      rewrite (map_loop_cut _ _ H u); [reflexivity|reflexivity|rewrite !app_length; cbn; lia|exact ND].
Qed.
Lemma data_ok_shape d t : data_ok d t -> exists x t', t = x :: t'.
Proof.
  intros [W|(_ & u & -> & _)]; [|destruct u; cbn; eauto]. inversion W; subst; eauto.
Qed.

Lemma insert_iff_data cs ts e d : insert_of cs ts = POk (mk_ins e d) <->
  5 <= length ts /\ exists en t, names cs en e /\ ts = kmis KmInto :: en ++ t /\ data_ok d t.
Proof.
  split.
  - intros H. apply hardened_ok in H. destruct H as (s & H & R). unfold ParseModel.parse_insert in H.
    destruct (remaining (start ts) <? 5) eqn:L; [discriminate H|]. apply Nat.ltb_ge in L.
    split; [exact L|]. apply pbind_ok in H. destruct H as (b & C & H). cbn zeta in H.
    apply pbind_ok in H. destruct H as ([en s2] & E & H). cbn beta iota in H.
    apply pbind_ok in H. destruct H as ([t s3] & F & H). cbn beta iota in H.
    unfold fw_read in F. destruct (rest s2) as [|x r] eqn:R2; [discriminate F|]. injection F as -> <-. cbn [rest] in H.
    assert (H2 : exists d', parse_data t (mk_pst r (okay s2)) = POk (d', s) /\ finish en s (fun e => mk_ins e d') = POk (mk_ins e d, s)).
    { destruct t as [[]| | |]; try (destruct r; discriminate H).
      - destruct r as [|x r]; [discriminate H|]. apply pbind_ok in H. destruct H as ([dd s4] & P & H).
        pose proof (finish_ok _ _ _ _ _ H) as (_ & -> & _). exists (InsTuple dd). cbn [parse_data]. rewrite P. auto.
      - destruct r as [|x r]; [discriminate H|]. apply pbind_ok in H. destruct H as ([dd s4] & P & H).
        pose proof (finish_ok _ _ _ _ _ H) as (_ & -> & _). exists (InsMap dd). cbn [parse_data]. rewrite P. auto. }
    destruct H2 as (d' & PD & FI). apply finish_ok in FI. destruct FI as (O & _ & e' & -> & X). injection X as <- <-.
    assert (DO : okay s2 = true /\ data_ok d (t :: r)).
    { destruct t as [[]| | |]; try discriminate PD; cbn [parse_data] in PD; apply pbind_ok in PD;
        destruct PD as ([dd s4] & P & PD); injection PD as <- <-.
      - apply parse_tuple_inv in P; [|exact O|exact R]. exact P.
      - apply parse_map_inv in P; [|exact O|exact R]. exact P. }
    destruct DO as (O2 & DO). apply entity_inv in E. destruct E as (_ & OE & tn & N & RE).
    rewrite OE in O2. cbn [ahead okay] in O2. apply need_ok in O2. destruct O2 as [_ ->].
    apply cur_is_ok in C. destruct C as (t0 & r0 & RT & P). symmetry in P. apply is_misc_eq in P. subst t0.
    cbn [start rest] in RT. subst ts. cbn [ahead need rest start skipn] in RE. rewrite R2 in RE. subst r0.
    exists tn, (t :: r). auto.
  - intros (L & en & t & N & -> & DO). destruct (data_ok_shape _ _ DO) as (x & t' & ->).
    destruct (data_ok_parse _ _ _ DO) as (NT & ND & PD).
    unfold ParseModel.insert_of, ParseModel.parse_insert, start, remaining. cbn [rest].
    apply Nat.ltb_ge in L. rewrite L. st. replace (is_misc KmInto (kmis KmInto)) with true by reflexivity. st.
    rewrite (entity_ok cs en e); [|exact N|exact ND|].
    2:{ destruct t'; [congruence|]. rewrite app_length. destruct N; cbn; lia. }
    st. unfold fw_read. cbn [rest pbind okay].
    destruct t' as [|y t']; [congruence|].
    destruct x as [[]| | |]; try discriminate PD; cbn [parse_data] in PD; apply pbind_ok in PD;
        destruct PD as ([dd s4] & P & PD); injection PD as <- ->; rewrite P; reflexivity.
Qed.

Lemma names_close cs en e (t : list token) : names cs en e -> en <> nil.
Proof. intros H. destruct H; discriminate. Qed.

Lemma insert_iff cs ts e d : insert_of cs ts = POk (mk_ins e d) <->
  5 <= length ts /\
  (wf_insert cs ts e d \/
   (some_data d /\ exists u, ts = u ++ [TSym SComma] /\ wf_insert cs (u ++ [close_of d]) e d)).
Proof.
  rewrite insert_iff_data. split.
  - intros (L & en & t & N & -> & D). split; [exact L|]. destruct D as [W|(S & u & -> & W)].
    + left. constructor; assumption.
    + right. split; [exact S|]. exists (kmis KmInto :: en ++ u). cbn [app]. rewrite <- !app_assoc. split; [reflexivity|].
      constructor; assumption.
  - intros (L & D). split; [exact L|]. destruct D as [W|(S & u & -> & W)].
    + destruct W as [en e d t N W]. exists en, t. split; [exact N|]. split; [reflexivity|]. left. exact W.
    + inversion W as [en e0 d0 t N WD E1 E2 E3]. subst e0 d0.
      assert (NT : t <> nil) by (destruct WD; discriminate).
      destruct (exists_last NT) as (t2 & z & ->).
      assert (EE : (kmis KmInto :: en ++ t2) ++ [z] = u ++ [close_of d]).
      { cbn [app]. rewrite <- app_assoc. exact E1. }
      apply app_inj_tail in EE. destruct EE as [<- ->].
      exists en, (t2 ++ [TSym SComma]). split; [exact N|]. split; [cbn [app]; rewrite <- app_assoc; reflexivity|].
      right. split; [exact S|]. exists t2. split; [reflexivity | exact WD].
Qed.

Lemma insert_class cs ts : sound (insert_of cs ts) \/ (insert_of cs ts = PPanic /\ ends_open ts).
Proof.
  unfold ParseModel.insert_of, ParseModel.parse_insert. destruct (remaining (start ts) <? 5) eqn:L.
  { left. right. cbn. eauto. }
  apply Nat.ltb_ge in L. unfold start, remaining in L. cbn [rest] in L.
  destruct ts as [|t ts]; cbn in L; [lia|]. unfold start. st.
  destruct (entity_total' cs (mk_pst ts (is_misc KmInto t))) as (e & s2 & E & L2 & OE); [cbn; lia|].
  rewrite E. cbn [pbind rest] in *. unfold fw_read. destruct (rest s2) as [|t2 r2] eqn:R2; [cbn in L2; lia|].
  cbn [pbind rest].
  assert (SUF : suffix r2 (t :: ts)).
  { pose proof (entity_inv _ _ _ _ E) as (_ & X). cbn [rest] in X. destruct e as [e|].
    - destruct X as (_ & en & _ & RE). cbn [rest] in RE. rewrite R2 in RE. exists (t :: en ++ [t2]). cbn [app].
      rewrite <- app_assoc. cbn [app]. f_equal. exact RE.
    - subst s2. cbn [poison rest] in R2. subst ts. exists [t; t2]. reflexivity. }
  assert (FIN : forall A (r : pres (A * pst)) (f : A -> insdata), good2 r r2 ->
     (forall x s', r = POk (x, s') -> okay s' = true -> okay s2 = true) ->
     sound (hardened (pbind r (fun '(d, s) => finish e s (fun e => mk_ins e (f d))))) \/
     (hardened (pbind r (fun '(d, s) => finish e s (fun e => mk_ins e (f d)))) = PPanic /\ ends_open (t :: ts))).
  { intros A r f [(x & s' & ->)|(-> & S)] OK.
    - left. apply hardened_sound. cbn [pbind]. apply finish_total. intros X. specialize (OE X).
      destruct (okay s') eqn:O'; [|reflexivity]. specialize (OK _ _ eq_refl O'). congruence.
    - right. split; [reflexivity | eapply suffix_ends; eassumption]. }
  assert (SYN : sound (@hardened insert_stmt (PErr ESyntax))) by (right; cbn; eauto).
  destruct t2 as [[]| | |]; try (left; destruct r2; exact SYN).
  - destruct r2 as [|y r2]; [left; exact SYN|]. apply (FIN _ _ InsTuple).
    + unfold ParseModel.parse_tuple, cur_is. cbn [rest pbind]. destruct (is_sym SCloseParen y); [left; eauto|].
      change (y :: r2) with (rest (mk_pst (y :: r2) (okay s2))) at 2. apply tuple_loop_total. cbn. lia.
    + intros x s' P O'. unfold ParseModel.parse_tuple, cur_is in P. cbn [rest pbind] in P.
      destruct (is_sym SCloseParen y); [injection P as <- <-; exact O'|].
      cbn [ParseModel.tuple_loop] in P. unfold going in P. cbn [rest okay] in P.
      destruct (okay s2) eqn:O2; [reflexivity|]. cbn [negb] in P. injection P as <- <-. exact O'.
  - destruct r2 as [|y r2]; [left; exact SYN|]. apply (FIN _ _ InsMap).
    + unfold ParseModel.parse_map, cur_is. cbn [rest pbind]. destruct (is_sym SCloseBrace y); [left; eauto|].
      change (y :: r2) with (rest (mk_pst (y :: r2) (okay s2))) at 2. apply map_loop_total. cbn. lia.
    + intros x s' P O'. unfold ParseModel.parse_map, cur_is in P. cbn [rest pbind] in P.
      destruct (is_sym SCloseBrace y); [injection P as <- <-; exact O'|].
      cbn [ParseModel.map_loop rest okay] in P. destruct (okay s2) eqn:O2; [reflexivity|]. cbn [negb] in P.
      destruct r2 as [|a [|b r2]]; injection P as <- <-; exact O'.
Qed.
End Ins.
