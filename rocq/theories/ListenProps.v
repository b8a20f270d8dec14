(** C101: the number of connections is limited and no client keeps others out. *)
From Coq Require Import List Arith NArith Bool Lia.
From Verif Require Import ListenModel.
Import ListNotations.
Local Open Scope N_scope.

(** ** Specification *)
(** who connected to the first port, to the second one; accepted calls on each; who finished the handshake; whose handler ended *)
Definition arrT (ls : list lab) : list N := flat_map (fun l => match l with ArrT c => [c] | _ => [] end) ls.
Definition arrS (ls : list lab) : list N := flat_map (fun l => match l with ArrS c => [c] | _ => [] end) ls.
Definition oks (ls : list lab) : nat := List.length (filter (fun l => match l with TOk => true | _ => false end) ls).
Definition soks (ls : list lab) : nat := List.length (filter (fun l => match l with SOk => true | _ => false end) ls).
Definition shaken (ls : list lab) : list N := flat_map (fun l => match l with SDone c true => [c] | _ => [] end) ls.
Definition ended (ls : list lab) : list N := flat_map (fun l => match l with End c => [c] | _ => [] end) ls.
Definition count (c : N) (l : list N) : nat := count_occ N.eq_dec l c.
(** the client shows no sign of life in its handshake *)
Definition silent (c : N) (ls : list lab) : Prop := forall b, ~ In (SDone c b) ls.

(** ** Proofs *)
Lemma run_app a : forall b s, run s (a ++ b) = match run s a with Some s' => run s' b | None => None end.
Proof. induction a as [|x a IH]; intros b s; cbn [run app]; [reflexivity|]. destruct (step s x); [apply IH|reflexivity]. Qed.
(** runs seen from their end *)
Lemma run_ind (P : list lab -> net -> Prop) s0 :
  P [] s0 -> (forall ls s l s', run s0 ls = Some s -> P ls s -> step s l = Some s' -> P (ls ++ [l]) s') ->
  forall ls s, run s0 ls = Some s -> P ls s.
Proof.
  intros B ST ls. induction ls as [|l ls IH] using rev_ind; intros s R; [cbn [run] in R; injection R as <-; exact B|].
  rewrite run_app in R. destruct (run s0 ls) as [s1|] eqn:R1; [|discriminate R]. cbn [run] in R.
  destruct (step s1 l) as [s2|] eqn:E; [|discriminate R]. injection R as <-. exact (ST ls s1 l s2 R1 (IH s1 eq_refl) E).
Qed.
Lemma flat_map_end {A B} (f : A -> list B) l x : flat_map f (l ++ [x]) = flat_map f l ++ f x.
Proof. rewrite flat_map_app. cbn [flat_map]. now rewrite app_nil_r. Qed.
Lemma oks_end ls l : oks (ls ++ [l]) = (oks ls + match l with TOk => 1 | _ => 0 end)%nat.
Proof. unfold oks. rewrite filter_app, app_length. now destruct l. Qed.
Lemma soks_end ls l : soks (ls ++ [l]) = (soks ls + match l with SOk => 1 | _ => 0 end)%nat.
Proof. unfold soks. rewrite filter_app, app_length. now destruct l. Qed.
Lemma count_app c a b : count c (a ++ b) = (count c a + count c b)%nat.
Proof. apply count_occ_app. Qed.
Lemma count_remove1 c x l : In x l -> count c l = (count c (remove1 x l) + count c [x])%nat.
Proof.
  unfold count. induction l as [|y l IH]; intros I; [destruct I|]. cbn [remove1]. destruct (N.eqb_spec y x) as [->|D].
  - cbn [count_occ]. destruct (N.eq_dec x c); lia.
  - destruct I as [->|I]; [contradiction|]. specialize (IH I). cbn [count_occ] in *. destruct (N.eq_dec y c); lia.
Qed.
Lemma existsb_in c l : existsb (N.eqb c) l = true <-> In c l.
Proof.
  rewrite existsb_exists. split; [intros (x & I & E); apply N.eqb_eq in E; now subst x|intros I; exists c; split; [exact I|apply N.eqb_refl]].
Qed.
Ltac use_ends := unfold arrT, arrS, shaken, ended in *; rewrite ?flat_map_end, ?oks_end, ?soks_end; cbn [app]; rewrite ?app_nil_r, ?Nat.add_0_r.

Definition books (ls : list lab) (s : net) : Prop :=
  (exists a, arrT ls = a ++ tq s /\ List.length a = oks ls /\ forall c, (count c (conns s) + count c (ended ls) = count c a + count c (shaken ls))%nat) /\
  (exists a, arrS ls = a ++ sq s /\ List.length a = soks ls).
Lemma run_books ls s : run net0 ls = Some s -> books ls s.
Proof.
  apply (run_ind books); [split; exists []; cbn; auto|]. clear. intros ls s l s' _ ((a & A & LA & C) & (b & B & LB)) H.
  destruct l as [c|c| | | | | | | |c ok|c]; cbn [step] in H.
  - injection H as <-. split; [exists a|exists b]; use_ends; cbn [tq sq conns]; rewrite ?A, ?B, ?app_assoc; auto.
  - injection H as <-. split; [exists a|exists b]; use_ends; cbn [tq sq conns]; rewrite ?A, ?B, ?app_assoc; auto.
  - destruct (tcp s); try discriminate H. destruct (permits s =? 0); [discriminate H|]. injection H as <-.
    split; [exists a|exists b]; use_ends; cbn [tq sq conns]; auto.
  - destruct (tcp s); try discriminate H. destruct (tq s) as [|c q] eqn:Q; [discriminate H|]. injection H as <-.
    split; [exists (a ++ [c])|exists b]; use_ends; cbn [tq sq conns]; auto. split; [rewrite <- app_assoc; exact A|].
    split; [rewrite app_length, LA; reflexivity|]. intros x. rewrite !count_app. specialize (C x). lia.
  - destruct (tcp s) as [|at_|]; try discriminate H. destruct (should_disconnect at_); injection H as <-;
      (split; [exists a|exists b]); use_ends; cbn [tq sq conns]; auto.
  - destruct (tcp s); try discriminate H. injection H as <-. split; [exists a|exists b]; use_ends; cbn [tq sq conns]; auto.
  - destruct (tls s); try discriminate H. destruct (sq s) as [|c q] eqn:Q; [discriminate H|]. injection H as <-.
    split; [exists a|exists (b ++ [c])]; use_ends; cbn [tq sq conns]; auto. split; [rewrite <- app_assoc; exact B|].
    rewrite app_length, LB. reflexivity.
  - destruct (tls s); try discriminate H. injection H as <-. split; [exists a|exists b]; use_ends; cbn [tq sq conns]; auto.
  - destruct (tls s); try discriminate H. injection H as <-. split; [exists a|exists b]; use_ends; cbn [tq sq conns]; auto.
  - destruct (tls s) as [| |d]; try discriminate H. destruct (d =? c); [|discriminate H]. injection H as <-.
    split; [exists a|exists b]; destruct ok; use_ends; cbn [tq sq conns]; auto. split; [exact A|]. split; [exact LA|].
    intros x. rewrite !count_app. specialize (C x). lia.
  - destruct (existsb (N.eqb c) (conns s)) eqn:X; [|discriminate H]. injection H as <-. apply existsb_in in X.
    split; [exists a|exists b]; use_ends; cbn [tq sq conns]; auto. split; [exact A|]. split; [exact LA|].
    intros x. rewrite !count_app. specialize (C x). pose proof (count_remove1 x c (conns s) X). lia.
Qed.

Definition pow2 (a : N) : Prop := In a [1; 2; 4; 8; 16; 32; 64].
Definition okst (s : net) : Prop :=
  match tcp s with TTop => permits s = CLIMIT | TAcc a => permits s = CLIMIT - 1 /\ pow2 a | TSleep a => permits s = CLIMIT - 1 /\ pow2 a end /\
  match tls s with SShake _ => True | SAcc a | SSleep a => pow2 a end.
Lemma pow2_spin a : pow2 a -> should_disconnect a = false -> pow2 (snd (spin a)) /\ fst (spin a) <= 32.
Proof.
  unfold pow2. intros P D. repeat (destruct P as [<-|P]; [try discriminate D; (split; [vm_compute; tauto|vm_compute; discriminate])|]). destruct P.
Qed.
Lemma run_okst ls s : run net0 ls = Some s -> okst s.
Proof.
  apply (run_ind (fun _ => okst)); [split; [reflexivity|now left]|]. clear. intros _ s l s' _ (P & Q) H. unfold okst.
  assert (C1 : CLIMIT - 1 + 1 = CLIMIT) by reflexivity.
  destruct l as [c|c| | | | | | | |c ok|c]; cbn [step] in H.
  - injection H as <-. now split.
  - injection H as <-. now split.
  - destruct (tcp s); try discriminate H. destruct (permits s =? 0); [discriminate H|]. injection H as <-. cbn [tcp tls permits].
    split; [split; [now rewrite P|now left]|exact Q].
  - destruct (tcp s); try discriminate H. destruct (tq s); [discriminate H|]. injection H as <-. cbn [tcp tls permits]. destruct P as [-> _]. now split.
  - destruct (tcp s) as [|a|]; try discriminate H. destruct P as [E P]. destruct (should_disconnect a) eqn:D; injection H as <-; cbn [tcp tls permits].
    + rewrite E. now split.
    + split; [split; [exact E|now apply pow2_spin]|exact Q].
  - destruct (tcp s); try discriminate H. injection H as <-. cbn [tcp tls permits]. now split.
  - destruct (tls s); try discriminate H. destruct (sq s); [discriminate H|]. injection H as <-. cbn [tcp tls permits]. now split.
  - destruct (tls s) as [a| |]; try discriminate H. injection H as <-. cbn [tcp tls permits]. split; [exact P|].
    destruct (should_disconnect a) eqn:D; [now left|now apply pow2_spin].
  - destruct (tls s); try discriminate H. injection H as <-. cbn [tcp tls permits]. now split.
  - destruct (tls s) as [| |d]; try discriminate H. destruct (d =? c); [|discriminate H]. injection H as <-. cbn [tcp tls permits]. split; [exact P|now left].
  - destruct (existsb (N.eqb c) (conns s)); [|discriminate H]. injection H as <-. now split.
Qed.

(** ** C101 *)
(** Nobody is lost, invented or taken out of turn: on both ports clients are accepted in the order they came; the open connections are exactly those
    accepted on the first port and those with a finished handshake on the second, without the ended ones. *)
Theorem C101_accounting ls s : run net0 ls = Some s ->
  tq s = skipn (oks ls) (arrT ls) /\ sq s = skipn (soks ls) (arrS ls) /\
  forall c, (count c (conns s) + count c (ended ls) = count c (firstn (oks ls) (arrT ls)) + count c (shaken ls))%nat.
Proof.
  intros R. destruct (run_books ls s R) as ((a & A & LA & C) & (b & B & LB)). rewrite A, B, <- LA, <- LB.
  rewrite !skipn_app, !skipn_all, !Nat.sub_diag, firstn_app, Nat.sub_diag, firstn_all. cbn [skipn firstn app]. rewrite app_nil_r. auto.
Qed.
Definition day : list lab := [ArrT 1; ArrS 2; ArrT 3; TPermit; TErr; SOk; TWake; TOk; ArrS 4; SDone 2 false; SOk; End 1; SDone 4 true; TPermit; TOk].
Example C101_accounting_example : option_map (fun s => (conns s, tq s, sq s, permits s)) (run net0 day) = Some ([4; 3], [], [], 50000).
Proof. vm_compute. reflexivity. Qed.

(** The permits never run out, because each is given back as soon as the connection is handed over: in every run [listen_tcp] finds all of them when it asks. *)
Theorem C101_permit_never_waits ls s : run net0 ls = Some s ->
  49999 <= permits s <= 50000 /\ (tcp s = TTop -> permits s = 50000 /\ step s TPermit <> None).
Proof.
  change 49999 with (CLIMIT - 1). change 50000 with CLIMIT.
  intros R. destruct (run_okst ls s R) as [P _]. split.
  - destruct (tcp s); [rewrite P|destruct P as [-> _]|destruct P as [-> _]]; unfold CLIMIT; lia.
  - intros E. rewrite E in P. split; [exact P|]. cbn [step]. rewrite E, P. discriminate.
Qed.
(** So there is no limit: any number of connections, on either port alone. *)
Theorem C101_unbounded n :
  (exists ls s, run net0 ls = Some s /\ arrS ls = [] /\ List.length (conns s) = n) /\
  (exists ls s, run net0 ls = Some s /\ arrT ls = [] /\ List.length (conns s) = n).
Proof.
  split.
  - assert (G : exists ls s, run net0 ls = Some s /\ arrS ls = [] /\ List.length (conns s) = n /\ tcp s = TTop /\ tq s = []).
    { induction n as [|n (ls & s & R & A & L & T & Q)]; [exists [], net0; cbn; auto|].
      destruct (C101_permit_never_waits ls s R) as [_ P]. destruct (P T) as [P1 _].
      exists (ls ++ [ArrT 0; TPermit; TOk]). rewrite run_app, R. cbn [run step tcp permits]. rewrite T, P1. cbn [N.eqb CLIMIT tcp tq]. rewrite Q. cbn [app].
      eexists. split; [reflexivity|]. split; [unfold arrS in *; rewrite flat_map_app, A; reflexivity|]. cbn [conns tcp tq].
      split; [rewrite app_length, L; cbn [List.length]; lia|auto]. }
    destruct G as (ls & s & R & A & L & _). exists ls, s. auto.
  - assert (G : exists ls s, run net0 ls = Some s /\ arrT ls = [] /\ List.length (conns s) = n /\ (exists a, tls s = SAcc a) /\ sq s = []).
    { induction n as [|n (ls & s & R & A & L & [a T] & Q)]; [exists [], net0; split; [reflexivity|]; split; [reflexivity|]; split; [reflexivity|]; split; [exists backoff0; reflexivity|reflexivity]|].
      exists (ls ++ [ArrS 0; SOk; SDone 0 true]). rewrite run_app, R. cbn [run step tls sq]. rewrite T, Q. cbn [app tls N.eqb].
      eexists. split; [reflexivity|]. split; [unfold arrT in *; rewrite flat_map_app, A; reflexivity|]. cbn [conns tls sq].
      split; [rewrite app_length, L; cbn [List.length]; lia|eauto]. }
    destruct G as (ls & s & R & A & L & _). exists ls, s. auto.
Qed.
Theorem C101_limit_refuted : exists ls s, run net0 ls = Some s /\ 50000 < N.of_nat (List.length (conns s)).
Proof.
  change 50000 with CLIMIT.
  destruct (C101_unbounded (N.to_nat (CLIMIT + 1))) as [(ls & s & R & _ & L) _]. exists ls, s. split; [exact R|].
  rewrite L, N2Nat.id. unfold CLIMIT. lia.
Qed.

(** As long as one client has not finished its handshake on the second port, nobody else there gets anything, whatever happens. *)
Theorem C101_handshake_blocks s c ls s' : tls s = SShake c -> silent c ls -> run s ls = Some s' ->
  tls s' = SShake c /\ sq s' = sq s ++ arrS ls /\ shaken ls = [].
Proof.
  revert s. induction ls as [|l ls IH]; intros s T SI R; cbn [run] in R.
  - injection R as <-. rewrite app_nil_r. auto.
  - destruct (step s l) as [s1|] eqn:E; [|discriminate R].
    assert (SI' : silent c ls) by (intros b I; apply (SI b); now right).
    assert (G : tls s1 = SShake c /\ sq s1 = sq s ++ arrS [l] /\ shaken [l] = []).
    { destruct l as [x|x| | | | | | | |x ok|x]; cbn [step] in E; rewrite ?T in E; try discriminate E; cbn [arrS shaken flat_map app]; rewrite ?app_nil_r.
      - injection E as <-. auto.
      - injection E as <-. auto.
      - destruct (tcp s); try discriminate E. destruct (permits s =? 0); [discriminate E|]. injection E as <-. auto.
      - destruct (tcp s); try discriminate E. destruct (tq s); [discriminate E|]. injection E as <-. auto.
      - destruct (tcp s) as [|a|]; try discriminate E. destruct (should_disconnect a); injection E as <-; auto.
      - destruct (tcp s); try discriminate E. injection E as <-. auto.
      - exfalso. destruct (N.eqb_spec c x) as [<-|D]; [|discriminate E]. apply (SI ok). now left.
      - destruct (existsb (N.eqb x) (conns s)); [|discriminate E]. injection E as <-. auto. }
    destruct G as (T1 & Q1 & H1). destruct (IH s1 T1 SI' R) as (T2 & Q2 & H2). split; [exact T2|]. split.
    + rewrite Q2, Q1, <- app_assoc. unfold arrS. now rewrite <- flat_map_app.
    + unfold shaken in *. change (l :: ls) with ([l] ++ ls). now rewrite flat_map_app, H1, H2.
Qed.
(** A client that connects and does nothing keeps every later one out for ever. *)
Theorem C101_silent_client_refuted : exists ls s c d, run net0 ls = Some s /\ c <> d /\ In d (sq s) /\
  forall ls' s', silent c ls' -> run s ls' = Some s' -> In d (sq s') /\ shaken ls' = [].
Proof.
  exists [ArrS 1; SOk; ArrS 2]. destruct (run net0 [ArrS 1; SOk; ArrS 2]) as [s|] eqn:R; [|vm_compute in R; discriminate R].
  exists s, 1, 2. split; [reflexivity|]. vm_compute in R. injection R as <-. split; [discriminate|]. split; [now left|].
  intros ls' s' SI R. destruct (C101_handshake_blocks (mk_net CLIMIT TTop (SShake 1) [] [2] []) 1 ls' s' eq_refl SI R) as (_ & Q & H). split; [|exact H]. rewrite Q. now left.
Qed.

(** What holds of the second sentence: on the first port everybody waiting is accepted by steps of the listener alone, whatever the connected clients do and
    wherever the other listener is; on the second one the same with the clients' handshakes. *)
Definition tcp_own (l : lab) : Prop := match l with TPermit | TOk | TWake => True | _ => False end.
Theorem C101_tcp_served_partial ls s : run net0 ls = Some s ->
  exists ls' s', Forall tcp_own ls' /\ run s ls' = Some s' /\ tq s' = [] /\ conns s' = conns s ++ tq s /\ tls s' = tls s /\ sq s' = sq s.
Proof.
  intros R. destruct (run_okst ls s R) as [P _]. clear R ls.
  assert (G : forall q s, permits s = CLIMIT -> tcp s = TTop -> tq s = q -> exists ls' s', Forall tcp_own ls' /\ run s ls' = Some s' /\ tq s' = [] /\
     conns s' = conns s ++ q /\ tls s' = tls s /\ sq s' = sq s).
  { clear. induction q as [|c q IH]; intros s P T Q.
    - exists [], s. rewrite app_nil_r. cbn [run]. auto 8.
    - destruct (IH (mk_net CLIMIT TTop (tls s) q (sq s) (conns s ++ [c])) eq_refl eq_refl eq_refl) as (l & s' & F & R & Q' & C & T' & S').
      exists (TPermit :: TOk :: l), s'. split; [repeat constructor; exact F|]. cbn [run step]. rewrite T, P. cbn [N.eqb CLIMIT tcp tq]. rewrite Q.
      cbn [permits tls sq conns]. split; [exact R|]. split; [exact Q'|]. cbn [conns tls sq] in C, T', S'. rewrite <- app_assoc in C. auto. }
  assert (G1 : forall a s, permits s = CLIMIT - 1 -> tcp s = TAcc a -> exists ls' s', Forall tcp_own ls' /\ run s ls' = Some s' /\ tq s' = [] /\
     conns s' = conns s ++ tq s /\ tls s' = tls s /\ sq s' = sq s).
  { clear - G. intros a s P T. destruct (tq s) as [|c q] eqn:Q; [exists [], s; rewrite app_nil_r; cbn [run]; auto 8|].
    destruct (G q (mk_net CLIMIT TTop (tls s) q (sq s) (conns s ++ [c])) eq_refl eq_refl eq_refl) as (l & s' & F & R & Q' & C & T' & S').
    exists (TOk :: l), s'. split; [repeat constructor; exact F|]. cbn [run step]. rewrite T, Q, P. split; [exact R|]. split; [exact Q'|].
    cbn [conns tls sq] in C, T', S'. rewrite <- app_assoc in C. auto. }
  destruct (tcp s) as [|a|a] eqn:T.
  - exact (G (tq s) s P T eq_refl).
  - exact (G1 a s (proj1 P) T).
  - destruct (G1 a (mk_net (permits s) (TAcc a) (tls s) (tq s) (sq s) (conns s)) (proj1 P) eq_refl) as (l & s' & F & R & X).
    exists (TWake :: l), s'. split; [constructor; [exact I|exact F]|]. cbn [run step]. rewrite T. split; [exact R|exact X].
Qed.
Theorem C101_tls_served_partial ls s : run net0 ls = Some s -> (forall c, tls s <> SShake c) ->
  exists ls' s', run s ls' = Some s' /\ shaken ls' = sq s /\ sq s' = [] /\ conns s' = conns s ++ sq s /\ tcp s' = tcp s /\ tq s' = tq s.
Proof.
  intros _ NS.
  assert (G : forall q s a, tls s = SAcc a -> sq s = q -> exists ls' s', run s ls' = Some s' /\ shaken ls' = q /\ sq s' = [] /\
     conns s' = conns s ++ q /\ tcp s' = tcp s /\ tq s' = tq s).
  { clear. induction q as [|c q IH]; intros s a T Q.
    - exists [], s. rewrite app_nil_r. cbn [run]. auto 8.
    - destruct (IH (mk_net (permits s) (tcp s) (SAcc backoff0) (tq s) q (conns s ++ [c])) _ eq_refl eq_refl) as (l & s' & R & H & Q' & C & T' & S').
      exists (SOk :: SDone c true :: l), s'. cbn [run step]. rewrite T, Q. cbn [tls]. rewrite N.eqb_refl. split; [exact R|].
      split; [unfold shaken in *; cbn [flat_map app]; now rewrite H|]. cbn [conns tcp tq] in C, T', S'. rewrite <- app_assoc in C. auto. }
  destruct (tls s) as [a|a|c] eqn:T.
  - exact (G (sq s) s a T eq_refl).
  - destruct (G (sq s) (mk_net (permits s) (tcp s) (SAcc a) (tq s) (sq s) (conns s)) a eq_refl eq_refl) as (l & s' & R & H & X).
    exists (SWake :: l), s'. cbn [run step]. rewrite T. split; [exact R|]. split; [exact H|exact X].
  - destruct (NS c eq_refl).
Qed.
Example C101_served_example : option_map (fun s => (tcp s, tls s, tq s, sq s)) (run net0 [ArrT 1; ArrT 2; ArrS 7; SErr; TPermit; TErr]) = Some (TSleep 2, SSleep 2, [1; 2], [7]).
Proof. vm_compute. reflexivity. Qed.

(** An [accept] whose first [k] calls fail: given up after the seventh failure and 63 seconds, otherwise successful after [2^k - 1] seconds. *)
Theorem C101_backoff_exact k rs : 
  (k <= 6 -> accept_loop backoff0 0 (repeat false (N.to_nat k) ++ true :: rs) = Some (true, 2 ^ k - 1)) /\
  (accept_loop backoff0 0 (repeat false 7 ++ rs) = Some (false, 63)).
Proof.
  split; [|reflexivity]. intros K. assert (X : In k [0; 1; 2; 3; 4; 5; 6]).
  { cbn [In]. destruct k as [|[[[|[]|]|[|[]|]|]|[[|[]|]|[|[]|]|]|]]; try lia; tauto. }
  repeat (destruct X as [<-|X]; [reflexivity|]). destruct X.
Qed.
(** In every run the counter of a listener is a power of two up to 64: it never loses its bit, no pause is longer than 32 seconds. *)
Theorem C101_backoff_bounded ls s a : run net0 ls = Some s -> tcp s = TAcc a \/ tcp s = TSleep a \/ tls s = SAcc a \/ tls s = SSleep a ->
  1 <= a <= 64 /\ (should_disconnect a = false -> fst (spin a) <= 32 /\ snd (spin a) = 2 * a).
Proof.
  intros R H. assert (P : pow2 a).
  { destruct (run_okst ls s R) as [P Q]. destruct H as [H|[H|[H|H]]]; rewrite H in *; tauto. }
  clear H R. unfold pow2 in P. cbn [In] in P.
  destruct P as [<-|[<-|[<-|[<-|[<-|[<-|[<-|[]]]]]]]]; (split; [lia|]); intros D; try discriminate D; (split; [vm_compute; discriminate|reflexivity]).
Qed.
Example C101_backoff_example : option_map tcp (run net0 [TPermit; TErr; TWake; TErr; TWake; TErr]) = Some (TSleep 8).
Proof. vm_compute. reflexivity. Qed.

Print Assumptions C101_accounting.
Print Assumptions C101_permit_never_waits.
Print Assumptions C101_unbounded.
Print Assumptions C101_limit_refuted.
Print Assumptions C101_handshake_blocks.
Print Assumptions C101_silent_client_refuted.
Print Assumptions C101_tcp_served_partial.
Print Assumptions C101_tls_served_partial.
Print Assumptions C101_backoff_exact.
Print Assumptions C101_backoff_bounded.
