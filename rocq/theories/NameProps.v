(** C93: the raw pointers to field names. The model is NameModel.v, the same statements without memory are in NameSpec.v. *)
From Coq Require Import Strings.String List NArith Bool Arith Lia.
From Verif Require Import Bytes NameModel NameSpec NameProofs NameLoad NameOwn.
Import ListNotations.

(** The state after CREATE MODEL with some declarations and then some history of statements and restarts. *)
Inductive reached {V} (null : V) : srv V -> Prop :=
| reach l s ops s' la : create l = Some (Some s) -> run null s ops = Some (s', la) -> reached null s'.

(** The pointers a later statement can follow *)
Inductive held {V} (s : mdl V) : ptr -> Prop :=
| H_key : held s (pk s)
| H_field p u : In (p, u) (fields s) -> held s p
| H_cell r p v : In r (rows s) -> In (p, v) (r_cells r) -> held s p
| H_pending r d : In r (rows s) -> In d (since (deltas s) (r_ver r)) -> held s (match d with DAdd p => p | DRem p => p end).
Definition live (m : mem) (p : ptr) : Prop := exists x, rd m p = Some x.

Lemma reached_sim {V} (null : V) s : reached null s -> (exists n, sim s n) /\ own (md s).
Proof.
  intros [l s0 ops s' la C R]. destruct (create_ok (V := V) l) as (o & E & K). rewrite C in E. injection E as <-.
  destruct K as (n & _ & I & L). assert (S : sim s0 n) by (split; [exists 0; exact I|exact L]).
  destruct (run_ok null ops s0 n S) as (s2 & lb & n2 & E & _ & S2). rewrite R in E. injection E as <- <-.
  split; [exists n2; exact S2|]. eapply run_own; [|exact R]. eapply created_own. exact C.
Qed.

Lemma NoDup_dec (l : list bytes) : {NoDup l} + {~ NoDup l}.
Proof.
  induction l as [|x l [IH|IH]]; [left; constructor| |right; intros D; inversion D; auto].
  destruct (in_dec bytes_eq_dec x l) as [I|I]; [right; intros D; inversion D; auto|left; constructor; auto].
Qed.
(** The specification gives one answer *)
Lemma nstep_det {V} (null : V) s o s1 a1 s2 a2 : nstep null s o s1 a1 -> nstep null s o s2 a2 -> s1 = s2 /\ a1 = a2.
Proof.
  intros A B. inversion A; subst; inversion B; subst; try (split; reflexivity); try contradiction; try congruence;
    repeat match goal with
    | H1 : nth_error (nrows ?z) ?i = Some _, H2 : nth_error (nrows ?z) ?i = Some _ |- _ => rewrite H1 in H2; injection H2; intros; subst; clear H2
    | H1 : ?e = Some _, H2 : ?e = Some _ |- _ => rewrite H1 in H2; injection H2; intros; subst; clear H2
    | H1 : nth_error (nrows ?z) ?i = Some ?r, H2 : forall r, nth_error (nrows ?z) ?i = Some r -> _ |- _ => specialize (H2 r H1)
    end; try congruence; split; reflexivity.
Qed.

(** No use after free and no panic on a missing name: after any accepted CREATE MODEL, every history of statements and restarts,
    whatever rows and versions the data files hold, runs through, and its answers are those of the specification, which has no
    memory at all (and gives one answer only). *)
Theorem C93_names : forall {V} (null : V) l s, create l = Some (Some s) -> forall ops,
  exists s' la, run null s ops = Some (s', la) /\
  exists n, created l n /\ exists n', nrun null n (map told ops) n' (map shown la) /\
    forall n2 lb, nrun null n (map told ops) n2 lb -> n2 = n' /\ lb = map shown la.
Proof.
  intros V null l s C ops. destruct (create_ok (V := V) l) as (o & E & K). rewrite C in E. injection E as <-.
  destruct K as (n & CN & I & L). assert (S : sim s n) by (split; [exists 0; exact I|exact L]).
  destruct (run_ok null ops s n S) as (s2 & la & n2 & E & N & _). exists s2, la. split; [exact E|]. exists n. split; [exact CN|].
  exists n2. split; [exact N|]. clear - N. revert N. generalize (map told ops). intros lo N. remember (map shown la) as lb. clear Heqlb la.
  induction N as [s|s o s1 a l s2 la S R IH]; intros m lb M; inversion M; subst.
  - split; reflexivity.
  - match goal with H : nstep null s o _ _ |- _ => destruct (nstep_det _ _ _ _ _ _ _ S H) as [<- <-] end.
    match goal with H : nrun null s1 l _ _ |- _ => destruct (IH _ _ H) as [-> ->] end. split; reflexivity.
Qed.
(** CREATE MODEL always comes to an answer; it is refused exactly when the names repeat, when two fields are declared primary, or when there are none. *)
Theorem C93_create : forall {V} l, exists o, create (V := V) l = Some o /\
  (o = None <-> ~ NoDup (map fst l) \/ (2 <= List.length (filter snd l))%nat \/ l = []).
Proof.
  intros V l. destruct (create_ok (V := V) l) as (o & E & K). exists o. split; [exact E|]. destruct o as [s|].
  - destruct K as (n & C & _). split; [intros Q; discriminate Q|]. intros H. exfalso. inversion C as [l0 k N F|x l0 N F]; subst.
    + destruct H as [H|[H|H]]; [contradiction|rewrite F in H; cbn in H; lia|subst; discriminate F].
    + destruct H as [H|[H|H]]; [contradiction|cbn [filter snd] in H; rewrite F in H; cbn in H; lia|discriminate H].
  - split; [intros _|reflexivity]. destruct (NoDup_dec (map fst l)) as [N|N]; [|left; exact N].
    destruct (filter snd l) as [|[k b] [|e r]] eqn:F; [| |right; left; cbn; lia].
    + destruct l as [|[x b] r]; [right; right; reflexivity|]. exfalso. assert (b = false) by (destruct b; [cbn in F; discriminate F|reflexivity]). subst b.
      cbn [filter snd] in F. eapply K. eapply c_first; eassumption.
    + exfalso. assert (b = true). { assert (J : In (k, b) (filter snd l)) by (rewrite F; left; reflexivity). apply filter_In in J as [_ J]. exact J. }
      subst b. eapply K. eapply c_declared; eassumption.
Qed.
(** In every state that can be reached, every pointer a later statement can follow leads to a name that exists, and every name
    that exists is owned by exactly one entry of the table. *)
Theorem C93_pointers : forall {V} (null : V) s, reached null s ->
  (forall p, held (md s) p -> live (mm (md s)) p) /\
  (forall p, live (mm (md s)) p <-> In p (map fst (tab (md s)))) /\ NoDup (map fst (tab (md s))) /\
  (forall p q x, rd (mm (md s)) p = Some x -> rd (mm (md s)) q = Some x -> p = q).
Proof.
  intros V null s R. destruct (reached_sim null s R) as [(n & (b & I) & _) O].
  destruct I as [T P PT PN L D DT B RR]. destruct T as ((t' & RT & DD & F) & RF & DN & IN).
  assert (LV : forall p, live (mm (md s)) p <-> In p (map fst (tab (md s)))).
  { intros p. split; [intros (x & E); exact (O p x E)|]. intros J. apply in_map_iff in J as ([q f] & Q & J). cbn [fst] in Q. subst q.
    destruct (rel_in _ _ _ _ _ RT J) as (x & X & _). exists x. exact X. }
  split; [|split; [exact LV|split; [eapply rel_nodup; eassumption|]]].
  - intros p H. apply LV. destruct H as [|p u J|r p v J1 J2|r d J1 J2].
    + exact PT.
    + apply IN. apply in_map_iff. exists (p, u). split; [reflexivity|exact J].
    + assert (K : exists nr, rowrel (mm (md s)) (tab (md s)) b r nr) by (clear - RR J1; induction RR as [|x y l l' H RR IH]; [contradiction|destruct J1 as [->|J1]; [exists y; exact H|auto]]).
      destruct K as (nr & _ & _ & K & _). apply K. apply in_map_iff. exists (p, v). split; [reflexivity|exact J2].
    + assert (K : exists nr, rowrel (mm (md s)) (tab (md s)) b r nr) by (clear - RR J1; induction RR as [|x y l l' H RR IH]; [contradiction|destruct J1 as [->|J1]; [exists y; exact H|auto]]).
      destruct K as (nr & _ & _ & _ & K). apply DT. unfold live in LV; apply (in_map dptr). unfold since in J2.
      assert (SK : exists k, skipn (N.to_nat (r_ver r + 1)) (deltas (md s)) = skipn k (skipn b (deltas (md s)))).
      { exists (N.to_nat (r_ver r + 1) - b). assert (SS : forall A (l : list A) x y, skipn x (skipn y l) = skipn (y + x) l) by (clear; intros A l x y; revert l; induction y as [|y IH]; intros [|a l]; cbn [skipn Nat.add]; auto; destruct x; reflexivity).
        rewrite SS. f_equal. lia. }
      destruct SK as (k & SK). rewrite SK in J2. rewrite <- (firstn_skipn k (skipn b (deltas (md s)))). apply in_or_app. right. exact J2.
  - intros p q x E1 E2. pose proof (O _ _ E1) as J1. pose proof (O _ _ E2) as J2. clear - RT DD E1 E2 J1 J2.
    apply in_map_iff in J1 as ([p' f] & Q1 & J1). apply in_map_iff in J2 as ([q' g] & Q2 & J2). cbn [fst] in Q1, Q2. subst p' q'.
    induction RT as [|[a fa] [y fy] l l' [H1 H2] RT IH]; [contradiction|]. cbn [map fst snd] in *. inversion DD as [|? ? N DD']; subst.
    destruct J1 as [J1|J1], J2 as [J2|J2].
    + congruence.
    + injection J1 as -> ->. destruct (rel_in _ _ _ _ _ RT J2) as (z & Z & IZ). rewrite E2 in Z. injection Z as <-. rewrite E1 in H1. injection H1 as ->. destruct N. apply in_map_iff. eexists. split; [|exact IZ]. reflexivity.
    + injection J2 as -> ->. destruct (rel_in _ _ _ _ _ RT J1) as (z & Z & IZ). rewrite E1 in Z. injection Z as <-. rewrite E2 in H1. injection H1 as ->. destruct N. apply in_map_iff. eexists. split; [|exact IZ]. reflexivity.
    + auto.
Qed.
(** Memory of names is not lost: after a restart exactly the names of the fields exist. *)
Theorem C93_reclaimed : forall {V} (null : V) s file, reached null s ->
  exists s', step null s (ORestart file) = Some (s', ADone) /\
    forall p, live (mm (md s')) p <-> In p (map fst (fields (md s'))).
Proof.
  intros V null s file R. destruct (reached_sim null s R) as [(n & S) O].
  pose proof S as (_ & LG). destruct (restart_ok null _ _ _ _ file LG) as (m & b & E & I).
  exists (mk_srv m (log s)). cbn [step]. rewrite E. split; [reflexivity|]. cbn [md].
  assert (RR : reached null (mk_srv m (log s))).
  { destruct R as [l s0 ops s' la C R]. econstructor; [exact C|]. instantiate (1 := (la ++ [ADone])). instantiate (1 := (ops ++ [ORestart file])).
    clear - R E. revert s0 la R. induction ops as [|o ops IH]; intros s0 la R; cbn [run app] in *.
    - injection R as -> <-. cbn [step]. rewrite E. reflexivity.
    - destruct (step null s0 o) as [[s1 a]|]; [|discriminate R]. destruct (run null s1 ops) as [[s2 lb]|] eqn:Q; [|discriminate R]. injection R as -> <-.
      rewrite (IH s1 lb Q). reflexivity. }
  destruct (C93_pointers null _ RR) as (_ & LV & _ & U). cbn [md] in LV, U.
  destruct I as [T P PT PN L D DT B RW]. cbn [names key_name changes nrows] in *. destruct T as ((t' & RT & DD & F) & RF & DN & IN).
  intros p. split.
  - intros (x & X). assert (J : In p (map fst (tab m))) by (apply LV; exists x; exact X).
    apply in_map_iff in J as ([q f] & Q & J). cbn [fst] in Q. subst q. destruct (rel_in _ _ _ _ _ RT J) as (y & Y & IY). rewrite X in Y. injection Y as <-.
    assert (f = false).
    { clear - E J. unfold restart in E. destruct (log s) as [|[k l|l|l] e]; try discriminate E.
      destruct (new_restore k l) as [s0|]; [|discriminate E]. destruct (replay s0 e) as [[s1|]|]; [|discriminate E|discriminate E].
      destruct (load_rows null s1 file) as [s2|]; [|discriminate E]. injection E as <-. unfold vacuum_stashed, vacuum_marked in J. cbn [tab] in J.
      apply filter_In in J as [_ J]. cbn [snd] in J. destruct f; [discriminate J|reflexivity]. }
    subst f. apply F in IY as [IY|[]]. assert (IU : In (x, tt) (map un (names n))) by (apply in_map_iff; exists x; split; [reflexivity|exact IY]).
    destruct (rel_in' _ _ _ _ _ RF IU) as (q & Q & JQ). rewrite (U p q x X Q). apply in_map_iff. exists (q, tt). split; [reflexivity|exact JQ].
  - intros J. apply LV. apply IN. exact J.
Qed.

(** * Cases *)
Local Open Scope string_scope.
Definition ex_decl : list (bytes * bool) := [(bstr "id", true); (bstr "name", false); (bstr "age", false)].
Definition ex_ops : list (op N) :=
  [OInsert (Tuple [1; 2; 3]%N); OAdd [bstr "city"; bstr "zip"]; ORem [bstr "name"]; ORead 0 None;
   OAdd [bstr "name"]; ORead 0 (Some [bstr "name"; bstr "id"; bstr "nope"]); ORem [bstr "city"]; ORem [bstr "id"];
   OInsert (Named [(bstr "id", 4%N); (bstr "name", 5%N); (bstr "zip", 6%N); (bstr "age", 7%N)]); OUpdate 1 [(bstr "zip", 8%N)];
   ORestart [(9%N, [10; 11; 12]%N); (0%N, [13; 14; 15]%N)]; OAdd [bstr "city"]; ORead 1 None; ORead 0 None].
Definition ex_start : srv N := match create (V := N) ex_decl with Some (Some s) => s | _ => mk_srv (mk_mdl [] [] 0 [] [] []) [] end.
Definition ex_end : srv N * list (ans N) := match run 0%N ex_start ex_ops with Some x => x | None => (ex_start, []) end.
(** The removed name [city] is freed by the restart and comes back at a new address; [name] came back before it, at its old address *)
Example C93_case : exists s0 s la, create (V := N) ex_decl = Some (Some s0) /\ run 0%N s0 ex_ops = Some (s, la) /\
  la = [ADone; ADone; ADone; AGot [GKey; GCell 3; GNone; GCell 0]%N; ADone; AGot [GCell 0%N; GKey; GNone]; ADone; ARefused; ADone; ADone; ADone; ADone;
        AGot [GKey; GCell 13; GCell 14; GCell 0; GCell 0]%N; AGot [GKey; GCell 10; GCell 11; GCell 12; GNone]%N] /\
  mm (md s) = [Some (bstr "id"); Some (bstr "name"); Some (bstr "age"); None; Some (bstr "zip"); Some (bstr "city")] /\
  tab (md s) = [(0, false); (1, false); (2, false); (4, false); (5, false)].
Proof.
  exists ex_start, (fst ex_end), (snd ex_end). split; [vm_compute; reflexivity|]. split; [vm_compute; reflexivity|]. split; [vm_compute; reflexivity|].
  split; vm_compute; reflexivity.
Qed.
(** and this state is one of those of [C93_pointers] and [C93_reclaimed] *)
Example C93_reached : exists s, reached 0%N s /\ List.length (rows (md s)) = 2 /\ List.length (deltas (md s)) = 6.
Proof.
  exists (fst ex_end). split; [apply (reach 0%N ex_decl ex_start ex_ops (fst ex_end) (snd ex_end)); vm_compute; reflexivity|].
  split; vm_compute; reflexivity.
Qed.
(** declarations that are refused *)
Example C93_refused : create (V := N) [(bstr "a", false); (bstr "b", true); (bstr "a", false)] = Some None /\
  create (V := N) [(bstr "a", true); (bstr "b", true)] = Some None.
Proof. vm_compute. split; reflexivity. Qed.

Print Assumptions C93_names.
Print Assumptions C93_create.
Print Assumptions C93_pointers.
Print Assumptions C93_reclaimed.
