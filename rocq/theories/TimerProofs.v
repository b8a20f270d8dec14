(** Proofs about TimerModel.v *)
From Coq Require Import List NArith Bool Lia.
From Verif Require Import TimerModel TimerSpec.
Import ListNotations.
Local Open Scope N_scope.

Lemma dir_eqb_eq a b : dir_eqb a b = true <-> a = b.
Proof.
  destruct a, b; cbn [dir_eqb]; rewrite ?andb_true_iff, ?N.eqb_eq; split; intros H;
    try discriminate H; try (injection H; intros; subst; auto; fail).
  - now subst.
  - destruct H as [-> ->]. reflexivity.
Qed.
Lemma inside_refl a : inside a a = true.
Proof. unfold inside. rewrite (proj2 (dir_eqb_eq a a) eq_refl). reflexivity. Qed.
Lemma inside_within a b : inside a b = true <-> within a b.
Proof.
  unfold inside. rewrite orb_true_iff, dir_eqb_eq. split.
  - intros [->|H]; [constructor|]. destruct a as [x|x m], b as [y|y k]; try discriminate H. apply N.eqb_eq in H. subst. constructor.
  - intros [d|x m]; [now left|right; apply N.eqb_refl].
Qed.
Lemma outside_within a b : inside a b = false <-> ~ within a b.
Proof. rewrite <- inside_within. destruct (inside a b); split; try congruence; intro H; now elim H. Qed.

Section Runs.
Variable dur : N.

(** the timer was made when the last thing done was finished *)
Definition inv (s : lp) : Prop := since s <= now s /\ (que s = [] -> now s <= since s + dur).
Lemma step_over s l s' : step dur s l = Some s' -> over s = false.
Proof. unfold step. destruct (over s); [intros D; discriminate D|reflexivity]. Qed.
Lemma step_inv s l s' : over s' = false -> inv s -> step dur s l = Some s' -> since s' <= now s' /\ now s <= now s'.
Proof.
  intros OV [A B] H. pose proof (step_over _ _ _ H) as O. unfold step in H. rewrite O in H.
  destruct l as [d|x|x|ok d|d|d].
  - destruct (que s); [|discriminate H]. destruct (_ <=? _); [|discriminate H]. injection H as <-. cbn [now since]. lia.
  - injection H as <-. cbn [now since]. lia.
  - injection H as <-. cbn [now since]. lia.
  - destruct (que s) as [|t q]; [discriminate H|]. destruct (_ && _); injection H as <-; cbn [now since]; destruct (fresh t); unfold pause; lia.
  - destruct (_ <=? _); [|discriminate H]. injection H as <-. cbn [now since]. lia.
  - injection H as <-. cbn [now since]. lia.
Qed.

(** ** Without deletions *)
Lemma run_quiet t0 ls : forall s s', asks ls = [] -> stops ls = false -> que s = [] -> over s = false ->
  since s = last_end t0 (writes s) -> spaced dur t0 (writes s) -> since s <= now s -> now s <= since s + dur ->
  run dur s ls = Some s' ->
  que s' = [] /\ since s' = last_end t0 (writes s') /\ spaced dur t0 (writes s') /\ since s' <= now s' /\ now s' <= since s' + dur.
Proof.
  induction ls as [|l ls IH]; intros s s' A ST Q O E SP L U R.
  - injection R as <-. auto.
  - cbn [run] in R. destruct (step dur s l) as [s1|] eqn:H; [|discriminate R].
    unfold step in H. rewrite O in H. cbn [stops existsb] in ST. apply orb_false_iff in ST. destruct ST as [ST1 ST].
    destruct l as [d|x|x|ok d|d|d]; cbn [asks flat_map app] in A.
    + rewrite Q in H. destruct (_ <=? _) eqn:C; [|discriminate H]. apply N.leb_le in C. injection H as <-.
      refine (IH _ s' A ST _ _ _ _ _ _ R); cbn [que over since now writes last_end]; auto; lia.
    + discriminate A.
    + injection H as <-. refine (IH _ s' A ST _ _ _ _ _ _ R); cbn [que over since now writes last_end]; auto; lia.
    + rewrite Q in H. discriminate H.
    + destruct (_ <=? _) eqn:C; [|discriminate H]. apply N.leb_le in C. injection H as <-.
      refine (IH _ s' A ST _ _ _ _ _ _ R); cbn [que over since now writes last_end]; auto; try lia.
      * cbn [spaced]. split; [rewrite <- E; lia|]. split; [lia|exact SP].
    + discriminate ST1.
Qed.

(** ** When the timer is over *)
Lemma run_since t0 ls : forall s s', (forall e, In e (t0 :: ends dur s ls) -> True) -> over s' = false -> since s <= now s -> run dur s ls = Some s' ->
  since s' <= now s' /\ (forall e, In e (ends dur s ls) -> e <= since s') /\ (since s' = since s \/ In (since s') (ends dur s ls)) /\ since s <= since s'.
Proof.
  induction ls as [|l ls IH]; intros s s' _ OV L R.
  - injection R as <-. cbn [ends]. split; [exact L|]. split; [intros e []|]. split; [now left|lia].
  - cbn [run ends] in *. destruct (step dur s l) as [s1|] eqn:H; [|discriminate R].
    assert (O : over s = false) by exact (step_over _ _ _ H).
    assert (O1 : over s1 = false).
    { destruct (over s1) eqn:E; [|reflexivity]. destruct ls; cbn [run] in R.
      - injection R as ->. congruence.
      - unfold step in R. rewrite E in R. discriminate R. }
    unfold step in H. rewrite O in H.
    assert (CASE : since s1 <= now s1 /\ ((since s1 = since s /\ (match l with LTask _ _ | LTimer _ => False | _ => True end))
                    \/ (since s1 = now s1 /\ since s <= now s1 /\ match l with LTask _ _ | LTimer _ => True | _ => False end))).
    { destruct l as [d|x|x|ok d|d|d].
      - destruct (que s); [|discriminate H]. destruct (_ <=? _); [|discriminate H]. injection H as <-. cbn [now since]. split; [lia|]. left. auto.
      - injection H as <-. cbn [now since]. split; [lia|]. left. auto.
      - injection H as <-. cbn [now since]. split; [lia|]. left. auto.
      - destruct (que s) as [|t q]; [discriminate H|]. destruct (_ && _); injection H as <-; cbn [now since];
          (split; [lia|]; right; split; [reflexivity|]; split; [destruct (fresh t); lia|exact Logic.I]).
      - destruct (_ <=? _); [|discriminate H]. injection H as <-. cbn [now since]. split; [lia|]. right. split; [reflexivity|]. split; [lia|exact Logic.I].
      - injection H as <-. cbn [over] in O1. discriminate O1. }
    destruct CASE as [L1 CASE]. destruct (IH s1 s' (fun _ _ => Logic.I) OV L1 R) as (A & B & C & D).
    split; [exact A|].
    destruct CASE as [[E K]|(E & M & K)].
    + assert (X : match l with LTask _ _ | LTimer _ => now s1 :: ends dur s1 ls | _ => ends dur s1 ls end = ends dur s1 ls) by (destruct l; tauto).
      rewrite X. split; [exact B|]. split; [destruct C as [C|C]; [left; congruence|now right]|lia].
    + assert (X : match l with LTask _ _ | LTimer _ => now s1 :: ends dur s1 ls | _ => ends dur s1 ls end = now s1 :: ends dur s1 ls) by (destruct l; tauto).
      rewrite X. split; [intros e [<-|I]; [lia|exact (B e I)]|]. split; [|lia]. right. destruct C as [C|C]; [left; lia|now right].
Qed.

(** ** A directory that is not there *)
Definition stuck (x : dir) (s : lp) : Prop :=
  over s = false /\ since s = now s /\ In x (map todo (que s)) /\ ~ In x (disk s).
Lemma existsb_dir x l : existsb (dir_eqb x) l = true <-> In x l.
Proof.
  rewrite existsb_exists. split.
  - intros (y & I & E). apply dir_eqb_eq in E. now subst.
  - intros I. exists x. split; [exact I|now apply dir_eqb_eq].
Qed.
Lemma step_stuck x s l s' : 0 < dur -> stuck x s -> l <> LMake x -> (forall d, l <> LStop d) -> step dur s l = Some s' -> stuck x s' /\ writes s' = writes s.
Proof.
  intros P (O & E & Q & D) NM NS H. unfold step in H. rewrite O in H. destruct l as [d|y|y|ok d|d|d].
  - destruct (que s); [destruct Q|discriminate H].
  - injection H as <-. split; [|reflexivity]. split; [reflexivity|]. split; [exact E|]. cbn [que disk]. split; [|exact D].
    rewrite map_app, in_app_iff. now left.
  - injection H as <-. split; [|reflexivity]. split; [reflexivity|]. split; [exact E|]. cbn [que disk]. split; [exact Q|].
    intros [->|I]; [now apply NM|exact (D I)].
  - destruct (que s) as [|t q] eqn:QS; [destruct Q|]. destruct (ok && _) eqn:C; injection H as <-; (split; [|reflexivity]).
    + apply andb_true_iff in C. destruct C as [_ C]. apply existsb_dir in C. split; [reflexivity|]. split; [reflexivity|]. cbn [que disk].
      cbn [map] in Q. destruct Q as [Q|Q]; [subst x; contradiction|]. split; [exact Q|]. intros I. apply filter_In in I. tauto.
    + split; [reflexivity|]. split; [reflexivity|]. cbn [que disk]. split; [|exact D]. rewrite map_app, in_app_iff. cbn [map todo] in *.
      destruct Q as [Q|Q]; [right; now left|now left].
  - destruct (_ <=? _) eqn:C; [|discriminate H]. apply N.leb_le in C. lia.
  - exfalso. now apply (NS d).
Qed.
Lemma run_stuck x ls : 0 < dur -> forall s s', stuck x s -> ~ In x (makes ls) -> stops ls = false -> run dur s ls = Some s' -> stuck x s' /\ writes s' = writes s.
Proof.
  intros P. induction ls as [|l ls IH]; intros s s' K NM NS R.
  - injection R as <-. auto.
  - cbn [run] in R. destruct (step dur s l) as [s1|] eqn:H; [|discriminate R].
    cbn [stops existsb] in NS. apply orb_false_iff in NS. destruct NS as [NS1 NS].
    destruct (step_stuck x s l s1 P K) as [K1 W1]; [| |exact H|].
    + intros ->. apply NM. cbn [makes flat_map app]. now left.
    + intros d ->. discriminate NS1.
    + destruct (IH s1 s' K1) as [K2 W2]; [|exact NS|exact R|].
      * intros I. apply NM. cbn [makes flat_map]. apply in_app_iff. now right.
      * split; [exact K2|congruence].
Qed.

(** ** Directories *)
(** what was asked for is in the queue, or gone with all that was in it *)
Definition gone (x : dir) (s : lp) : Prop := In x (map todo (que s)) \/ forall y, In y (disk s) -> inside y x = false.
Lemma step_gone x s l s' : gone x s -> (forall y, l = LMake y -> inside y x = false) -> step dur s l = Some s' -> gone x s'.
Proof.
  intros G NM H. pose proof (step_over _ _ _ H) as O. unfold step in H. rewrite O in H. destruct l as [d|y|y|ok d|d|d].
  - destruct (que s) eqn:Q; [|discriminate H]. destruct (_ <=? _); [|discriminate H]. injection H as <-. destruct G as [G|G]; [rewrite Q in G; now left|now right].
  - injection H as <-. destruct G as [G|G]; [left|now right]. cbn [que]. rewrite map_app, in_app_iff. now left.
  - injection H as <-. destruct G as [G|G]; [now left|right]. cbn [disk]. intros z [<-|I]; [now apply NM|exact (G z I)].
  - destruct (que s) as [|t q] eqn:Q; [discriminate H|]. destruct (ok && _) eqn:C; injection H as <-.
    + destruct G as [G|G].
      * rewrite Q in G. cbn [map] in G. destruct G as [G|G]; [|now left]. right. cbn [disk]. intros y I. apply filter_In in I. destruct I as [_ I].
        rewrite G in I. now apply negb_true_iff in I.
      * right. cbn [disk]. intros y I. apply filter_In in I. exact (G y (proj1 I)).
    + destruct G as [G|G]; [left|now right]. cbn [que]. rewrite Q in G. cbn [map] in G. rewrite map_app, in_app_iff. cbn [map todo].
      destruct G as [G|G]; [right; now left|now left].
  - destruct (_ <=? _); [|discriminate H]. injection H as <-. exact G.
  - injection H as <-. exact G.
Qed.
Lemma run_gone x ls : forall s s', gone x s -> (forall y, In y (makes ls) -> inside y x = false) -> run dur s ls = Some s' -> gone x s'.
Proof.
  induction ls as [|l ls IH]; intros s s' G NM R.
  - injection R as <-. exact G.
  - cbn [run] in R. destruct (step dur s l) as [s1|] eqn:H; [|discriminate R]. apply (IH s1 s'); [|intros y I; apply NM; cbn [makes flat_map]; apply in_app_iff; now right|exact R].
    apply (step_gone x s l s1 G); [|exact H]. intros y ->. apply NM. cbn [makes flat_map app]. now left.
Qed.
Lemma run_dropped x ls : forall s s', dropped x ls -> run dur s ls = Some s' -> gone x s'.
Proof.
  induction ls as [|l ls IH]; intros s s' D R; [destruct D|].
  cbn [run] in R. destruct (step dur s l) as [s1|] eqn:H; [|discriminate R]. destruct D as [D|[-> NM]].
  - exact (IH s1 s' D R).
  - apply (run_gone x ls s1 s'); [|intros y I; apply outside_within; exact (NM y I)|exact R]. pose proof (step_over _ _ _ H) as O. unfold step in H. rewrite O in H. injection H as <-.
    left. cbn [que]. rewrite map_app, in_app_iff. right. now left.
Qed.
(** nothing else goes *)
Lemma step_keeps x s l s' : In x (disk s) -> (forall y, In y (map todo (que s)) -> inside x y = false) -> (forall y, l = LAsk y -> inside x y = false) ->
  step dur s l = Some s' -> In x (disk s') /\ forall y, In y (map todo (que s')) -> inside x y = false.
Proof.
  intros D Q NA H. pose proof (step_over _ _ _ H) as O. unfold step in H. rewrite O in H. destruct l as [d|y|y|ok d|d|d].
  - destruct (que s) eqn:QS; [|discriminate H]. destruct (_ <=? _); [|discriminate H]. injection H as <-. split; [exact D|intros y []].
  - injection H as <-. split; [exact D|]. cbn [que]. intros z I. rewrite map_app, in_app_iff in I. destruct I as [I|[<-|[]]]; [exact (Q z I)|]. now apply NA.
  - injection H as <-. split; [now right|exact Q].
  - destruct (que s) as [|t q] eqn:QS; [discriminate H|]. destruct (ok && _) eqn:C; injection H as <-; cbn [que disk].
    + split.
      * apply filter_In. split; [exact D|]. rewrite (Q (todo t)); [reflexivity|now left].
      * intros y I. apply Q. now right.
    + split; [exact D|]. intros y I. rewrite map_app, in_app_iff in I. destruct I as [I|[<-|[]]]; apply Q; [now right|now left].
  - destruct (_ <=? _); [|discriminate H]. injection H as <-. auto.
  - injection H as <-. auto.
Qed.
Lemma run_keeps x ls : forall s s', In x (disk s) -> (forall y, In y (map todo (que s)) -> inside x y = false) -> (forall y, In y (asks ls) -> inside x y = false) ->
  run dur s ls = Some s' -> In x (disk s').
Proof.
  induction ls as [|l ls IH]; intros s s' D Q NA R.
  - injection R as <-. exact D.
  - cbn [run] in R. destruct (step dur s l) as [s1|] eqn:H; [|discriminate R].
    destruct (step_keeps x s l s1 D Q) as [D1 Q1]; [|exact H|].
    + intros y ->. apply NA. cbn [asks flat_map app]. now left.
    + apply (IH s1 s' D1 Q1); [|exact R]. intros y I. apply NA. cbn [asks flat_map]. apply in_app_iff. now right.
Qed.

(** deletions that all succeed: the queue is worked off *)
Lemma run_work q : forall s, over s = false -> que s = q -> (forall t, In t q -> In (todo t) (disk s)) -> 
  (forall l1 a l2 b l3, map todo q = l1 ++ a :: l2 ++ b :: l3 -> inside b a = false) ->
  exists s', run dur s (map (fun _ => LTask true 0) q) = Some s' /\ que s' = [].
Proof.
  induction q as [|t q IH]; intros s O Q E SEP.
  - exists s. auto.
  - cbn [map run]. unfold step at 1. rewrite O, Q. rewrite (proj2 (existsb_dir _ _) (E t (or_introl eq_refl))). cbn [andb].
    apply IH.
    + reflexivity.
    + reflexivity.
    + intros u I. cbn [disk]. apply filter_In. split; [apply E; now right|]. apply negb_true_iff.
      apply in_split in I. destruct I as (l2 & l3 & ->).
      apply (SEP [] (todo t) (map todo l2) (todo u) (map todo l3)). cbn [map]. now rewrite map_app.
    + intros l1 a l2 b l3 EQ. apply (SEP (todo t :: l1) a l2 b l3). cbn [map app]. now rewrite EQ.
Qed.
End Runs.

(** ** Starvation *)
Definition turn (dur k : N) : list lab := [LMake (DSpace k); LAsk (DSpace k); LTask true 0; LWait (dur - 1)].
Fixpoint turns (dur : N) (n : nat) : list lab := match n with O => [] | S n => turns dur n ++ turn dur (N.of_nat n) end.
Lemma run_app dur s a b : run dur s (a ++ b) = match run dur s a with Some s' => run dur s' b | None => None end.
Proof. revert s. induction a as [|l a IH]; intros s; cbn [run app]; [reflexivity|]. destruct (step dur s l); [apply IH|reflexivity]. Qed.
Lemma run_turn dur s k : 1 <= dur -> over s = false -> que s = [] -> disk s = [] ->
  run dur s (turn dur k) = Some (mk_lp (now s + (dur - 1)) (now s) [] [] (writes s) false).
Proof.
  intros D O Q E. unfold turn. cbn [run]. unfold step at 1. rewrite O. unfold step at 1. cbn [over now since que disk writes]. unfold step at 1. cbn [over now since que disk writes].
  rewrite Q, E. cbn [app todo fresh existsb dir_eqb andb]. rewrite N.eqb_refl. cbn [orb filter]. unfold inside. cbn [dir_eqb]. rewrite N.eqb_refl. cbn [orb negb].
  unfold step. cbn [over now since que disk writes].
  assert (X : now s + 0 + 0 + (dur - 1) <=? now s + 0 + 0 + dur = true) by (apply N.leb_le; lia).
  rewrite X. f_equal. f_equal; lia.
Qed.
Lemma run_turns dur n : 1 <= dur -> exists s, run dur (lp0 0 []) (turns dur n) = Some s /\ over s = false /\ que s = [] /\ disk s = [] /\ writes s = [] /\ now s = N.of_nat n * (dur - 1).
Proof.
  intros D. induction n as [|n (s & R & O & Q & E & W & T)].
  - exists (lp0 0 []). repeat split.
  - cbn [turns]. rewrite run_app, R, (run_turn dur s _ D O Q E). eexists. split; [reflexivity|]. cbn [over que disk writes now]. repeat split; [exact W|].
    rewrite T. lia.
Qed.
Lemma turns_facts dur n : failures (turns dur n) = O /\ stops (turns dur n) = false.
Proof.
  induction n as [|n [A B]]; [split; reflexivity|]. cbn [turns]. unfold failures, stops in *. rewrite filter_app, app_length, existsb_app, B. rewrite A. split; reflexivity.
Qed.
