(** C120: the benchmark runs what its command line asks for. C121: its keys are different and of the size asked for. *)
From Coq Require Import Strings.String.
From Coq Require Import List NArith Bool Lia Arith.
From Verif Require Import Bytes AMap ConfigModel ConfigSpec ConfigProofs ArgsModel ArgsProps NumModel NumProofs BenchArgsModel.
Import ListNotations.
Local Open Scope string_scope.
Local Open Scope list_scope.
Local Open Scope N_scope.

(** ** Specification *)
Section Spec.
(** the key size needed for so many rows; SKYDB_PASSWORD; the number of processors *)
Variable need : N -> N.
Variable env : option bytes.
Variable cpus : N.
(** the options, each with its value *)
Variable kv : list (bytes * bytes).
Definition boptions : list bytes := [bstr "--endpoint"; bstr "--password"; bstr "--threads"; bstr "--connections"; bstr "--keysize"; bstr "--rowcount"; bstr "--engine"].
(** a size named by an option, or the default *)
Definition size_or (k : string) (d n : N) : Prop :=
  (absent kv (bstr k) /\ n = d) \/ exists t, given kv (bstr k) t /\ number 18446744073709551615 t n /\ n <> 0.
Definition engine_name (e : bengine) : bytes := match e with Rookie => bstr "rookie" | Fury => bstr "fury" end.
(** the help text, with the key size of the code in place of 7 *)
Record bmeaning (c : bcfg) : Prop := {
  bm_known : forall k v, given kv k v -> In k boptions;
  bm_endpoint : (absent kv (bstr "--endpoint") /\ b_host c = bstr "127.0.0.1" /\ b_port c = 2003) \/
    exists e, given kv (bstr "--endpoint") e /\ ep_text PTcp e (b_host c) (b_port c);
  bm_password : given kv (bstr "--password") (b_pass c) \/ (absent kv (bstr "--password") /\ env = Some (b_pass c));
  bm_threads : size_or "--threads" cpus (b_threads c);
  bm_rows : size_or "--rowcount" 1000000 (b_rows c);
  bm_key : (absent kv (bstr "--keysize") /\ b_key c = need (b_rows c)) \/
    exists t, given kv (bstr "--keysize") t /\ number 18446744073709551615 t (b_key c) /\ need (b_rows c) <= b_key c;
  bm_engine : (absent kv (bstr "--engine") /\ b_engine c = Fury) \/ given kv (bstr "--engine") (engine_name (b_engine c));
  bm_conns : size_or "--connections" (cpus * 8) (b_conns c);
  bm_rookie : b_engine c = Rookie -> absent kv (bstr "--connections") }.
(** what a complaint says *)
Definition bad_size (k : string) : Prop := exists t, given kv (bstr k) t /\ forall n, number 18446744073709551615 t n -> n = 0.
Definition complaint (e : berr) : Prop :=
  match e with
  | BArgs _ => False
  | BForm => exists v, given kv (bstr "--endpoint") v /\ forall pr h t, v = pr ++ bstr "@" ++ h ++ bstr ":" ++ t -> ~ (free x40 (pr ++ h ++ t) /\ free x3a (h ++ t))
  | BPort => exists v pr h t, given kv (bstr "--endpoint") v /\ v = pr ++ bstr "@" ++ h ++ bstr ":" ++ t /\ forall n, ~ number 65535 t n
  | BProto => exists v pr r, given kv (bstr "--endpoint") v /\ v = pr ++ bstr "@" ++ r /\ pr <> bstr "tcp"
  | BPass => absent kv (bstr "--password") /\ env = None
  | BThreads => bad_size "--threads"
  | BRows => bad_size "--rowcount"
  | BKey => exists t rows, given kv (bstr "--keysize") t /\ size_or "--rowcount" 1000000 rows /\ forall n, number 18446744073709551615 t n -> n < need rows
  | BEngine => exists t, given kv (bstr "--engine") t /\ t <> bstr "rookie" /\ t <> bstr "fury"
  | BRookie => given kv (bstr "--engine") (bstr "rookie") /\ exists t, given kv (bstr "--connections") t
  | BConns => bad_size "--connections"
  | BUnknown => exists k v, given kv k v /\ ~ In k boptions
  end.
End Spec.

(** ** Proofs *)
Lemma bbind_inl {A B : Type} (x : A + berr) (f : A -> B + berr) b : bbind x f = inl b <-> exists a, x = inl a /\ f a = inl b.
Proof.
  destruct x as [a|e]; cbn [bbind]; split.
  - intros H. exists a. auto.
  - intros (a' & H & K). injection H as <-. exact K.
  - intros H. discriminate H.
  - intros (a' & H & _). discriminate H.
Qed.
Lemma bbind_inr {A B : Type} (x : A + berr) (f : A -> B + berr) e : bbind x f = inr e <-> x = inr e \/ exists a, x = inl a /\ f a = inr e.
Proof.
  destruct x as [a|e']; cbn [bbind]; split.
  - intros H. right. exists a. auto.
  - intros [H|(a' & H & K)]; [discriminate H|]. injection H as <-. exact K.
  - intros H. left. injection H as <-. reflexivity.
  - intros [H|(a' & H & _)]; [injection H as <-; reflexivity|discriminate H].
Qed.

Lemma free_app c a b : free c (a ++ b) <-> free c a /\ free c b.
Proof. unfold free. rewrite in_app_iff. tauto. Qed.

Section Pieces.
Variable flog : N -> N.
Variable env : option bytes.
Variable cpus : N.
Variable m : list (bytes * bytes).
Hypothesis ND : NoDup (keys m).

Lemma looked k : (lookup k m = None /\ absent m k) \/ exists v, lookup k m = Some v /\ given m k v /\ ~ absent m k /\ forall w, given m k w -> w = v.
Proof using ND.
  destruct (lookup k m) as [v|] eqn:E.
  - right. exists v. apply lookup_in in E. split; [reflexivity|]. split; [exact E|]. split; [intros A; exact (A v E)|].
    intros w G. exact (nodup_fun _ _ _ m ND G E).
  - left. split; [reflexivity|]. apply lookup_absent. exact E.
Qed.
Ltac look k := let v := fresh "v" in let G := fresh "G" in let NA := fresh "NA" in let U := fresh "U" in
  destruct (looked k) as [(-> & NA)|(v & -> & G & NA & U)].

Lemma endpoint_inl h p : b_endpoint (lookup (bstr "--endpoint") m) = inl (h, p) <->
  (absent m (bstr "--endpoint") /\ h = bstr "127.0.0.1" /\ p = 2003) \/ exists e, given m (bstr "--endpoint") e /\ ep_text PTcp e h p.
Proof using ND.
  look (bstr "--endpoint"); cbn [b_endpoint].
  - split; [intros H; injection H as <- <-; auto|]. intros [(_ & -> & ->)|(e & G & _)]; [reflexivity|destruct (NA e G)].
  - assert (X : ((absent m (bstr "--endpoint") /\ h = bstr "127.0.0.1" /\ p = 2003) \/ exists e, given m (bstr "--endpoint") e /\ ep_text PTcp e h p) <-> ep_text PTcp v h p).
    { split; [intros [(A & _)|(e & G' & T)]; [destruct (NA A)|rewrite (U e G') in T; exact T]|]. intros T. right. exists v. auto. }
    rewrite X. rewrite <- (parse_endpoint_iff SCli). unfold parse_endpoint.
    destruct (split_on x40 v) as [|pr [|hp [|z t]]]; try (split; intros H; discriminate H).
    destruct (split_on x3a hp) as [|host [|port [|z t]]]; try (split; intros H; discriminate H).
    destruct (parse_uint u16_max port) as [n|]; [|split; intros H; discriminate H].
    destruct (beqb pr (bstr "tcp")); [split; intros H; injection H as <- <-; reflexivity|].
    destruct (beqb pr (bstr "tls")); split; intros H; discriminate H.
Qed.
Lemma endpoint_inr e : b_endpoint (lookup (bstr "--endpoint") m) = inr e -> complaint (cdig flog) env m e.
Proof using ND.
  look (bstr "--endpoint"); cbn [b_endpoint]; [intros H; discriminate H|].
  assert (F : e = BForm -> (forall pr h t, free x40 pr -> free x40 h -> free x40 t -> free x3a h -> free x3a t -> v <> pr ++ bstr "@" ++ h ++ bstr ":" ++ t) -> complaint (cdig flog) env m e).
  { intros -> H. exists v. split; [exact G|]. intros pr h t E (F1 & F2). apply free_app in F1 as [A F1]. apply free_app in F1 as [B C].
    apply free_app in F2 as [D F2]. exact (H pr h t A B C D F2 E). }
  assert (S2 : forall pr h t, free x40 pr -> free x40 h -> free x40 t -> v = pr ++ bstr "@" ++ h ++ bstr ":" ++ t -> split_on x40 v = [pr; h ++ bstr ":" ++ t]).
  { intros pr h t A B C ->. apply split_two. split; [exact A|]. split; [|reflexivity]. apply free_app. split; [exact B|]. apply free_app. split; [|exact C].
    intros I. cbn in I. destruct I as [I|[]]. discriminate I. }
  destruct (split_on x40 v) as [|pr [|hp [|z t]]] eqn:S1.
  1,2,4: intros H; injection H as <-; apply F; [reflexivity|]; intros pr' h t' A B C _ _ E; specialize (S2 pr' h t' A B C E); discriminate S2.
  destruct (split_on x3a hp) as [|host [|port [|z t]]] eqn:S3.
  1,2,4: intros H; injection H as <-; apply F; [reflexivity|]; intros pr' h t' A B C D D' E; specialize (S2 pr' h t' A B C E); injection S2 as S2 S2';
    pose proof (proj2 (split_two x3a (h ++ bstr ":" ++ t') h t') (conj D (conj D' eq_refl))) as Q; change (bstr ":" ++ t') with (x3a :: t') in Q; change (bstr ":" ++ t') with (x3a :: t') in S2'; rewrite <- S2', S3 in Q; discriminate Q.
  apply split_two in S1 as (A & B & E). apply split_two in S3 as (C & D & ->).
  destruct (parse_uint u16_max port) as [n|] eqn:P.
  - destruct (beqb pr (bstr "tcp")) eqn:T; intros H; [discriminate H|]. injection H as <-. exists v, pr, (host ++ x3a :: port). split; [exact G|]. split; [exact E|].
    apply beqb_neq. exact T.
  - intros H. injection H as <-. exists v, pr, host, port. split; [exact G|]. split; [exact E|]. intros n NU. apply parse_uint_iff in NU. unfold u16_max in P. congruence.
Qed.
Lemma password_inl p : b_password env (lookup (bstr "--password") m) = inl p <->
  given m (bstr "--password") p \/ (absent m (bstr "--password") /\ env = Some p).
Proof using ND.
  look (bstr "--password"); cbn [b_password].
  - split; [destruct env as [q|]; intros H; [injection H as <-; auto|discriminate H]|]. intros [G|(_ & ->)]; [destruct (NA p G)|reflexivity].
  - split; [intros H; injection H as <-; auto|]. intros [G'|(A & _)]; [rewrite (U p G'); reflexivity|destruct (NA A)].
Qed.
Lemma password_inr e : b_password env (lookup (bstr "--password") m) = inr e -> complaint (cdig flog) env m e.
Proof using ND.
  look (bstr "--password"); cbn [b_password]; [|intros H; discriminate H].
  destruct env; intros H; [discriminate H|]. injection H as <-. split; [exact NA|reflexivity].
Qed.
Lemma number_some t n : number 18446744073709551615 t n -> parse_uint u64_max t = Some n.
Proof using. intros H. apply parse_uint_iff. exact H. Qed.
Lemma count_inl k d e n : b_count d e (lookup (bstr k) m) = inl n <-> size_or m k d n.
Proof using ND.
  unfold size_or. look (bstr k); cbn [b_count].
  - split; [intros H; injection H as <-; auto|]. intros [(_ & ->)|(t & G & _)]; [reflexivity|destruct (NA t G)].
  - split.
    + destruct (parse_uint u64_max v) as [q|] eqn:P; [|intros H; discriminate H]. destruct (N.eqb_spec q 0) as [Z|Z]; intros H; [discriminate H|]. injection H as <-.
      right. exists v. apply parse_uint_iff in P. auto.
    + intros [(A & _)|(t & G' & NU & Z)]; [destruct (NA A)|]. rewrite (U t G') in NU. rewrite (number_some _ _ NU). apply N.eqb_neq in Z. rewrite Z. reflexivity.
Qed.
Lemma bad_of k v : given m (bstr k) v -> parse_uint u64_max v = None \/ parse_uint u64_max v = Some 0 -> bad_size m k.
Proof using. intros G P. exists v. split; [exact G|]. intros n NU. apply number_some in NU. destruct P; congruence. Qed.
Lemma count_inr k d e e' : b_count d e (lookup (bstr k) m) = inr e' -> e' = e /\ bad_size m k.
Proof using ND.
  look (bstr k); cbn [b_count]; [intros H; discriminate H|].
  destruct (parse_uint u64_max v) as [n|] eqn:P; [destruct (N.eqb_spec n 0) as [->|_]|]; intros H; [|discriminate H|]; injection H as <-; (split; [reflexivity|]);
    apply (bad_of k v G); auto.
Qed.
Lemma keysize_inl need s : b_keysize need (lookup (bstr "--keysize") m) = inl s <->
  (absent m (bstr "--keysize") /\ s = need) \/ exists t, given m (bstr "--keysize") t /\ number 18446744073709551615 t s /\ need <= s.
Proof using ND.
  look (bstr "--keysize"); cbn [b_keysize].
  - split; [intros H; injection H as <-; auto|]. intros [(_ & ->)|(t & G & _)]; [reflexivity|destruct (NA t G)].
  - split.
    + destruct (parse_uint u64_max v) as [q|] eqn:P; [|intros H; discriminate H]. destruct (N.leb_spec need q) as [Z|Z]; intros H; [|discriminate H]. injection H as <-.
      right. exists v. apply parse_uint_iff in P. auto.
    + intros [(A & _)|(t & G' & NU & Z)]; [destruct (NA A)|]. rewrite (U t G') in NU. rewrite (number_some _ _ NU). apply N.leb_le in Z. rewrite Z. reflexivity.
Qed.
Lemma keysize_inr rows e : size_or m "--rowcount" 1000000 rows -> b_keysize (cdig flog rows) (lookup (bstr "--keysize") m) = inr e -> complaint (cdig flog) env m e.
Proof using ND.
  intros R. look (bstr "--keysize"); cbn [b_keysize]; [intros H; discriminate H|].
  destruct (parse_uint u64_max v) as [n|] eqn:P; [destruct (N.leb_spec (cdig flog rows) n) as [Z|Z]|]; intros H; [discriminate H| |]; injection H as <-; exists v, rows;
    (split; [exact G|]); (split; [exact R|]); intros q NU; apply number_some in NU; [|congruence]. rewrite P in NU. injection NU as <-. exact Z.
Qed.
Lemma eng_inl en : b_eng (lookup (bstr "--engine") m) = inl en <->
  (absent m (bstr "--engine") /\ en = Fury) \/ given m (bstr "--engine") (engine_name en).
Proof using ND.
  look (bstr "--engine"); cbn [b_eng].
  - split; [intros H; injection H as <-; auto|]. intros [(_ & ->)|G]; [reflexivity|destruct (NA _ G)].
  - split.
    + destruct (beqb v (bstr "rookie")) eqn:E1; [|destruct (beqb v (bstr "fury")) eqn:E2]; intros H; [| |discriminate H]; injection H as <-; right;
        apply beqb_eq in E1 || apply beqb_eq in E2; subst v; exact G.
    + intros [(A & _)|G']; [destruct (NA A)|]. rewrite <- (U _ G'). destruct en; reflexivity.
Qed.
Lemma eng_inr e : b_eng (lookup (bstr "--engine") m) = inr e -> complaint (cdig flog) env m e.
Proof using ND.
  look (bstr "--engine"); cbn [b_eng]; [intros H; discriminate H|].
  destruct (beqb v (bstr "rookie")) eqn:E1; [intros H; discriminate H|]. destruct (beqb v (bstr "fury")) eqn:E2; intros H; [discriminate H|]. injection H as <-.
  exists v. apply beqb_neq in E1, E2. auto.
Qed.
Lemma connections_inl en n : b_connections cpus en (lookup (bstr "--connections") m) = inl n <->
  size_or m "--connections" (cpus * 8) n /\ (en = Rookie -> absent m (bstr "--connections")).
Proof using ND.
  unfold size_or. look (bstr "--connections"); cbn [b_connections].
  - split; [intros H; injection H as <-; auto|]. intros ([(_ & ->)|(t & G & _)] & _); [reflexivity|destruct (NA t G)].
  - split.
    + destruct (parse_uint u64_max v) as [q|] eqn:P; [|intros H; discriminate H]. destruct (N.eqb_spec q 0) as [Z|Z]; [intros H; discriminate H|].
      destruct en; intros H; [discriminate H|]. injection H as <-. split; [|intros H; discriminate H]. right. exists v. apply parse_uint_iff in P. auto.
    + intros ([(A & _)|(t & G' & NU & Z)] & R); [destruct (NA A)|]. rewrite (U t G') in NU. rewrite (number_some _ _ NU). apply N.eqb_neq in Z. rewrite Z.
      destruct en; [destruct (NA (R eq_refl))|reflexivity].
Qed.
Lemma connections_inr en e : ((absent m (bstr "--engine") /\ en = Fury) \/ given m (bstr "--engine") (engine_name en)) ->
  b_connections cpus en (lookup (bstr "--connections") m) = inr e -> complaint (cdig flog) env m e.
Proof using ND.
  intros EN. look (bstr "--connections"); cbn [b_connections]; [intros H; discriminate H|].
  destruct (parse_uint u64_max v) as [n|] eqn:P; [destruct (N.eqb_spec n 0) as [->|_]; [|destruct en]|]; intros H; try discriminate H; injection H as <-.
  1,3: apply (bad_of "--connections" v G); auto.
  split; [|exists v; exact G]. destruct EN as [(_ & D)|D]; [discriminate D|exact D].
Qed.

Definition leftover : argmap :=
  remove (bstr "--connections") (remove (bstr "--engine") (remove (bstr "--keysize") (remove (bstr "--rowcount") (remove (bstr "--threads")
    (remove (bstr "--password") (remove (bstr "--endpoint") m)))))).
Lemma leftover_in k v : In (k, v) leftover <-> In (k, v) m /\ ~ In k boptions.
Proof using.
  clear flog env cpus ND. unfold leftover, boptions. rewrite !remove_in. cbn [In]. split.
  - intros (((((((I & A) & B) & C) & D) & E) & F) & G). split; [exact I|]. intros H. repeat destruct H as [H|H]; congruence.
  - intros (I & H). repeat split; [exact I|..]; intros ->; apply H; tauto.
Qed.
Lemma leftover_nil : leftover = [] <-> forall k v, given m k v -> In k boptions.
Proof using.
  rewrite nil_iff. split; intros H k v.
  - intros G. destruct (in_dec (list_eq_dec byte_eq_dec') k boptions) as [I|I]; [exact I|]. destruct (H k v). apply leftover_in. split; [exact G|exact I].
  - intros L. apply leftover_in in L as [G N]. exact (N (H k v G)).
Qed.
Lemma lookups :
  lookup (bstr "--password") (remove (bstr "--endpoint") m) = lookup (bstr "--password") m /\
  lookup (bstr "--threads") (remove (bstr "--password") (remove (bstr "--endpoint") m)) = lookup (bstr "--threads") m /\
  lookup (bstr "--rowcount") (remove (bstr "--threads") (remove (bstr "--password") (remove (bstr "--endpoint") m))) = lookup (bstr "--rowcount") m /\
  lookup (bstr "--keysize") (remove (bstr "--rowcount") (remove (bstr "--threads") (remove (bstr "--password") (remove (bstr "--endpoint") m)))) = lookup (bstr "--keysize") m /\
  lookup (bstr "--engine") (remove (bstr "--keysize") (remove (bstr "--rowcount") (remove (bstr "--threads") (remove (bstr "--password") (remove (bstr "--endpoint") m))))) = lookup (bstr "--engine") m /\
  lookup (bstr "--connections") (remove (bstr "--engine") (remove (bstr "--keysize") (remove (bstr "--rowcount") (remove (bstr "--threads") (remove (bstr "--password") (remove (bstr "--endpoint") m)))))) = lookup (bstr "--connections") m.
Proof using. repeat match goal with |- _ /\ _ => split end; rewrite !remove_lookup by differ; reflexivity. Qed.

Lemma bconfig_inl c : bconfig flog env cpus m = inl c <-> bmeaning (cdig flog) env cpus m c.
Proof using ND.
  unfold bconfig. cbv zeta. destruct lookups as (-> & -> & -> & -> & -> & ->). fold leftover. split.
  - intros H. apply bbind_inl in H as ([h p] & E1 & H). apply bbind_inl in H as (pw & E2 & H). apply bbind_inl in H as (th & E3 & H).
    apply bbind_inl in H as (rows & E4 & H). apply bbind_inl in H as (ks & E5 & H). apply bbind_inl in H as (en & E6 & H). apply bbind_inl in H as (cn & E7 & H).
    destruct leftover eqn:L; [|discriminate H]. cbn [fst snd] in H. injection H as <-.
    apply endpoint_inl in E1. apply password_inl in E2. apply count_inl in E3, E4. apply keysize_inl in E5. apply eng_inl in E6. apply connections_inl in E7 as [E7 E8].
    constructor; cbn [b_host b_port b_pass b_threads b_key b_rows b_engine b_conns]; try assumption. apply leftover_nil. exact L.
  - intros [A B C D E F G H I]. destruct c as [h p pw th ks rows en cn]. cbn [b_host b_port b_pass b_threads b_key b_rows b_engine b_conns] in *.
    apply bbind_inl. exists (h, p). split; [apply endpoint_inl; exact B|]. apply bbind_inl. exists pw. split; [apply password_inl; exact C|].
    apply bbind_inl. exists th. split; [apply count_inl; exact D|]. apply bbind_inl. exists rows. split; [apply count_inl; exact E|].
    apply bbind_inl. exists ks. split; [apply keysize_inl; exact F|]. apply bbind_inl. exists en. split; [apply eng_inl; exact G|].
    apply bbind_inl. exists cn. split; [apply connections_inl; auto|]. rewrite (proj2 leftover_nil A). reflexivity.
Qed.
Lemma bconfig_inr e : bconfig flog env cpus m = inr e -> complaint (cdig flog) env m e.
Proof using ND.
  unfold bconfig. cbv zeta. destruct lookups as (-> & -> & -> & -> & -> & ->). fold leftover. intros H.
  apply bbind_inr in H as [E|([h p] & _ & H)]; [exact (endpoint_inr _ E)|].
  apply bbind_inr in H as [E|(pw & _ & H)]; [exact (password_inr _ E)|].
  apply bbind_inr in H as [E|(th & _ & H)]; [apply count_inr in E as [-> E]; exact E|].
  apply bbind_inr in H as [E|(rows & E4 & H)]; [apply count_inr in E as [-> E]; exact E|]. apply count_inl in E4.
  apply bbind_inr in H as [E|(ks & _ & H)]; [exact (keysize_inr _ _ E4 E)|].
  apply bbind_inr in H as [E|(en & E6 & H)]; [exact (eng_inr _ E)|]. apply eng_inl in E6.
  apply bbind_inr in H as [E|(cn & _ & H)]; [exact (connections_inr _ _ E6 E)|].
  destruct leftover as [|[k v] r] eqn:L; [discriminate H|]. injection H as <-.
  exists k, v. apply leftover_in. rewrite L. left. reflexivity.
Qed.
End Pieces.

(** ** C120 *)
(** Full statement: as the help text has it, in particular with a key size of 7 when none is named. Refuted below. With the key size of the code, exactly: the
    benchmark is run with a configuration if and only if the options, each once, say so (a value with an equals sign or a host with a colon cannot be
    written, as in C103). *)
Theorem C120_accepted_partial flog env cpus argv c :
  bparse flog env cpus argv = inl (BRun c) <->
  exists kv, cmdline (tl argv) kv /\ NoDup (keys kv) /\ bmeaning (cdig flog) env cpus kv c.
Proof.
  unfold bparse. destruct (parse_args_deny_duplicate argv) as [| |m|k|a] eqn:E.
  1,2,4,5: split; [intros H; discriminate H|intros (kv & C & ND & _); pose proof (proj2 (C103_arguments_exact argv (AcArgs kv)) (conj C ND)); congruence].
  apply C103_arguments_exact in E. destruct E as [C ND]. split.
  - intros H. apply bbind_inl in H as (c' & H & K). injection K as ->. exists m. split; [exact C|]. split; [exact ND|]. apply bconfig_inl; assumption.
  - intros (kv & C' & ND' & M). pose proof (reading_deny (tl argv) (AcArgs m) (conj C ND)) as R1. pose proof (reading_deny (tl argv) (AcArgs kv) (conj C' ND')) as R2.
    rewrite R1 in R2. injection R2 as ->. apply bbind_inl. exists c. split; [apply bconfig_inl; assumption|reflexivity].
Qed.
(** a logarithm to run examples with: one less than the number of digits *)
Definition ilog (n : N) : N := N.of_nat (List.length (dec_u64 n)) - 1.
Definition cl (l : list string) : list bytes := map bstr l.
Example C120_accepted_example :
  bparse ilog (Some (bstr "from env")) 4 (cl ["sky-bench"; "--threads=2"; "--rowcount"; "500"; "--engine"; "rookie"]) =
    inl (BRun (mk_bcfg (bstr "127.0.0.1") 2003 (bstr "from env") 2 3 500 Rookie 32)) /\
  bparse ilog None 4 (cl ["sky-bench"; "--password=pw"; "--endpoint"; "tcp@db.local:99"; "--connections=7"; "--keysize"; "20"]) =
    inl (BRun (mk_bcfg (bstr "db.local") 99 (bstr "pw") 4 20 1000000 Fury 7)).
Proof. split; vm_compute; reflexivity. Qed.
(** Every refusal after the arguments as such were read (C103) says something true of the options. *)
Theorem C120_complaint flog env cpus argv e :
  bparse flog env cpus argv = inr e ->
  (exists a, e = BArgs a /\ reading (tl argv) a /\ forall kv, a <> AcArgs kv) \/
  exists kv, cmdline (tl argv) kv /\ NoDup (keys kv) /\ complaint (cdig flog) env kv e.
Proof.
  unfold bparse. destruct (parse_args_deny_duplicate argv) as [| |m|k|a] eqn:E; intros H; try discriminate H; apply C103_arguments_exact in E.
  - right. exists m. destruct E as [C ND]. split; [exact C|]. split; [exact ND|].
    apply bbind_inr in H as [H|(c & _ & H)]; [apply bconfig_inr in H; assumption|discriminate H].
  - left. injection H as <-. exists (AcDuplicate k). split; [reflexivity|]. split; [exact E|]. intros kv D. discriminate D.
  - left. injection H as <-. exists (AcMissing a). split; [reflexivity|]. split; [exact E|]. intros kv D. discriminate D.
Qed.
Example C120_complaint_example :
  map (bparse ilog None 4) (map (fun l => cl ("sky-bench" :: l)%list)
    [["--endpoint=tcp@h"]; ["--endpoint=tcp@h:70000"]; ["--endpoint=tls@h:1"]; ["--threads=3"]; ["--password=p"; "--threads=0"]; ["--password=p"; "--rowcount=ten"];
     ["--password=p"; "--keysize=3"]; ["--password=p"; "--engine=warp"]; ["--password=p"; "--engine=rookie"; "--connections=3"]; ["--password=p"; "--connections=0"];
     ["--password=p"; "--rows=3"]; ["--password=p"; "--password=q"]]) =
  map inr [BForm; BPort; BProto; BPass; BThreads; BRows; BKey; BEngine; BRookie; BConns; BUnknown; BArgs (AcDuplicate (bstr "--password"))].
Proof. vm_compute. reflexivity. Qed.

(** ** C121 *)
(** The key of a row: a text of digits with the value of the position. *)
Definition key_text (size i : N) (k : bytes) : Prop := len k = size /\ all_digits k /\ horner 0 k = i.
Lemma horner_zeros n l : horner 0 (repeat x30 n ++ l) = horner 0 l.
Proof.
  rewrite horner_app. f_equal. induction n as [|n IH]; [reflexivity|]. cbn [repeat]. rewrite horner_cons. change (0 * 10 + digit_val x30) with 0. exact IH.
Qed.
Lemma len_text n : n < two64 -> forall w, 0 < w -> n < 10 ^ w -> len (dec_u64 n) <= w.
Proof.
  intros L w P H. destruct (dec_u64_text n L) as (NE & AD & V & Z). destruct (dec_u64 n) as [|b l]; [congruence|].
  destruct (Byte.byte_eq_dec b x30) as [->|NZ].
  - specialize (Z eq_refl). injection Z as ->. unfold len. cbn [List.length]. lia.
  - pose proof (dec_text_len_lb b l AD NZ) as LB. rewrite V in LB. assert (10 ^ len l < 10 ^ w) as Q by lia.
    apply N.pow_lt_mono_r_iff in Q; [|lia]. unfold len in *. cbn [List.length]. lia.
Qed.
Lemma fmt_pk_text w i : i < two64 -> 0 < w -> i < 10 ^ w -> key_text w i (fmt_pk w i).
Proof.
  intros L P H. pose proof (len_text i L w P H) as LT. destruct (dec_u64_text i L) as (_ & AD & V & _). unfold fmt_pk, key_text. split; [|split].
  - unfold len in *. rewrite app_length, repeat_length. lia.
  - apply Forall_app. split; [|exact AD]. apply Forall_forall. intros b I. apply repeat_spec in I. subst b. vm_compute. split; intros D; discriminate D.
  - rewrite horner_zeros. exact V.
Qed.
Lemma accepted_key flog env cpus argv c : bparse flog env cpus argv = inl (BRun c) -> b_rows c <> 0 /\ b_rows c <= 18446744073709551615 /\ flog (b_rows c) + 1 <= b_key c.
Proof.
  intros H. apply C120_accepted_partial in H as (kv & _ & _ & M). destruct M as [_ _ _ _ R K _ _ _].
  assert (NZ : b_rows c <> 0) by (destruct R as [(_ & ->)|(t & _ & _ & Z)]; [lia|exact Z]).
  split; [exact NZ|]. split; [destruct R as [(_ & ->)|(t & _ & (L & _) & _)]; lia|].
  unfold cdig in K. apply N.eqb_neq in NZ. rewrite NZ in K. destruct K as [(_ & ->)|(t & _ & _ & Z)]; lia.
Qed.
(** For every accepted configuration, provided the logarithm of a number at or above a power of ten is not below that power's exponent (rounding up anywhere does
    no harm): keys of exactly the size asked for, different for different rows. *)
Theorem C121_keys flog env cpus argv c :
  (forall n k, n < two64 -> 10 ^ k <= n -> k <= flog n) ->
  bparse flog env cpus argv = inl (BRun c) ->
  forall i, 1 <= i <= b_rows c -> key_text (b_key c) i (bkey c i) /\ forall j, 1 <= j <= b_rows c -> bkey c i = bkey c j -> i = j.
Proof.
  intros LG H. apply accepted_key in H as (NZ & L & K).
  assert (B : b_rows c < 10 ^ (flog (b_rows c) + 1)).
  { destruct (N.lt_ge_cases (b_rows c) (10 ^ (flog (b_rows c) + 1))) as [X|X]; [exact X|]. apply LG in X; [lia|unfold two64; lia]. }
  assert (B' : 10 ^ (flog (b_rows c) + 1) <= 10 ^ b_key c) by (apply N.pow_le_mono_r; lia).
  assert (T : forall i, 1 <= i <= b_rows c -> key_text (b_key c) i (bkey c i)) by (intros i I; apply fmt_pk_text; [unfold two64; lia|lia|lia]).
  intros i I. split; [exact (T i I)|]. intros j J E. destruct (T i I) as (_ & _ & V1). destruct (T j J) as (_ & _ & V2). rewrite E in V1. congruence.
Qed.
Lemma ilog_spec n k : n < two64 -> (10 ^ k <= n -> k <= ilog n) /\ (0 < n -> n < 10 ^ (k + 1) -> ilog n <= k).
Proof.
  intros L. unfold ilog. fold (len (dec_u64 n)). split.
  - intros H. destruct (dec_u64_text n L) as (_ & AD & V & _). pose proof (horner_bound _ AD) as B. rewrite V in B.
    assert (Q : 10 ^ k < 10 ^ len (dec_u64 n)) by lia. apply N.pow_lt_mono_r_iff in Q; lia.
  - intros P H. pose proof (len_text n L (k + 1) ltac:(lia) H). lia.
Qed.
Example C121_keys_example :
  (forall n k, n < two64 -> 10 ^ k <= n -> k <= ilog n) /\
  option_map (fun c => map (bkey c) [1; 7; 500]) (match bparse ilog (Some []) 4 (cl ["sky-bench"; "--rowcount=500"; "--keysize=5"]) with inl (BRun c) => Some c | _ => None end) =
    Some (cl ["00001"; "00007"; "00500"]).
Proof. split; [intros n k L H; apply (ilog_spec n k L); lia|vm_compute; reflexivity]. Qed.
(** When no size is named and the logarithm is exact, the size is the smallest in which the position of every row can be written. *)
Theorem C121_default_size flog env cpus argv kv c :
  (forall n, 0 < n -> n < two64 -> 10 ^ flog n <= n < 10 ^ (flog n + 1)) ->
  bparse flog env cpus argv = inl (BRun c) -> cmdline (tl argv) kv -> NoDup (keys kv) -> absent kv (bstr "--keysize") ->
  b_rows c < 10 ^ b_key c /\ forall s, b_rows c < 10 ^ s -> b_key c <= s.
Proof.
  intros LG H C ND A. pose proof (accepted_key _ _ _ _ _ H) as (NZ & L & _). apply C120_accepted_partial in H as (kv' & C' & ND' & M).
  destruct (LG (b_rows c)) as [G1 G2]; [lia|unfold two64; lia|].
  assert (KV : kv = kv').
  { pose proof (reading_deny (tl argv) (AcArgs kv) (conj C ND)) as R1. pose proof (reading_deny (tl argv) (AcArgs kv') (conj C' ND')) as R2. congruence. }
  subst kv'. assert (K : b_key c = flog (b_rows c) + 1).
  { pose proof (bm_key _ _ _ _ _ M) as K. unfold cdig in K. rewrite (proj2 (N.eqb_neq _ _) NZ) in K. destruct K as [(_ & K)|(t & G & _)]; [exact K|destruct (A t G)]. }
  rewrite K. split; [exact G2|]. intros s B. assert (Q : 10 ^ flog (b_rows c) < 10 ^ s) by lia. apply N.pow_lt_mono_r_iff in Q; lia.
Qed.
Example C121_default_size_example :
  (forall n, 0 < n -> n < two64 -> 10 ^ ilog n <= n < 10 ^ (ilog n + 1)) /\
  map (fun r => match bparse ilog (Some []) 4 (cl ["sky-bench"; "--rowcount"; r]) with inl (BRun c) => b_key c | _ => 0 end) ["1"; "9"; "10"; "11"; "99"; "100"; "18446744073709551615"] =
    [1; 1; 2; 2; 2; 3; 20].
Proof.
  split; [|vm_compute; reflexivity]. intros n P L. split.
  - destruct (N.le_gt_cases (10 ^ ilog n) n) as [H|H]; [exact H|]. destruct (N.eq_dec (ilog n) 0) as [Z|Z]; [rewrite Z in *; change (10 ^ 0) with 1 in *; lia|].
    pose proof (proj2 (ilog_spec n (ilog n - 1) L) P) as Q. replace (ilog n - 1 + 1) with (ilog n) in Q by lia. specialize (Q H). lia.
  - destruct (N.le_gt_cases (10 ^ (ilog n + 1)) n) as [H|H]; [|exact H]. pose proof (proj1 (ilog_spec n (ilog n + 1) L) H). lia.
Qed.
(** The complaint about a key size, with an exact logarithm: in so many digits the position of the last row cannot be written. *)
Theorem C120_key_complaint flog env cpus argv :
  (forall n, 0 < n -> n < two64 -> 10 ^ flog n <= n < 10 ^ (flog n + 1)) ->
  bparse flog env cpus argv = inr BKey ->
  exists kv t rows, cmdline (tl argv) kv /\ given kv (bstr "--keysize") t /\ size_or kv "--rowcount" 1000000 rows /\
    forall n, number 18446744073709551615 t n -> forall k, ~ key_text n rows k.
Proof.
  intros LG H. apply C120_complaint in H. destruct H as [(a & D & _)|(kv & C & _ & t & rows & G & SZ & H)]; [discriminate D|].
  exists kv, t, rows. split; [exact C|]. split; [exact G|]. split; [exact SZ|]. intros n NU k (LK & AD & V). specialize (H n NU).
  assert (NZ : rows <> 0 /\ rows < two64) by (unfold two64; destruct SZ as [(_ & ->)|(t' & _ & (L & _) & Z)]; [lia|split; [exact Z|lia]]).
  destruct NZ as [NZ L]. unfold cdig in H. rewrite (proj2 (N.eqb_neq _ _) NZ) in H. destruct (LG rows) as [G1 _]; [lia|exact L|].
  pose proof (horner_bound _ AD) as B. rewrite V, LK in B. assert (10 ^ n <= 10 ^ flog rows) by (apply N.pow_le_mono_r; lia). lia.
Qed.
Example C120_key_complaint_example :
  (forall n, 0 < n -> n < two64 -> 10 ^ ilog n <= n < 10 ^ (ilog n + 1)) /\
  bparse ilog (Some []) 4 (cl ["sky-bench"; "--rowcount=10"; "--keysize=1"]) = inr BKey /\ len (fmt_pk 1 10) = 2.
Proof. split; [exact (proj1 C121_default_size_example)|]. vm_compute. split; reflexivity. Qed.
(** Help and version: exactly when the arguments say so. *)
Theorem C120_help_exact flog env cpus argv :
  (bparse flog env cpus argv = inl BHelp <-> reading (tl argv) AcHelp) /\ (bparse flog env cpus argv = inl BVersion <-> reading (tl argv) AcVersion).
Proof.
  rewrite <- !C103_arguments_exact. unfold bparse. destruct (parse_args_deny_duplicate argv) as [| |m|k|a].
  3: { destruct (bconfig flog env cpus m) as [c|e]; cbn [bbind]; split; split; intros H; discriminate H. }
  all: split; split; intros H; congruence.
Qed.
Example C120_help_example :
  map (bparse ilog None 4) (map (fun l => cl ("sky-bench" :: l)%list) [["--help"]; ["--threads"; "0"; "--version"]]) = [inl BHelp; inl BVersion].
Proof. vm_compute. reflexivity. Qed.
(** What is false: the help text's default key size (help_text/help, "defaults to 7") is not the one used. *)
Theorem C120_default_key_refuted : exists argv c kv,
  bparse ilog (Some []) 4 argv = inl (BRun c) /\ cmdline (tl argv) kv /\ absent kv (bstr "--keysize") /\ b_key c <> 7.
Proof.
  exists (cl ["sky-bench"; "--rowcount=500"]), (mk_bcfg (bstr "127.0.0.1") 2003 [] 4 3 500 Fury 32), [(bstr "--rowcount", bstr "500")].
  split; [vm_compute; reflexivity|].
  assert (R : reading (tl (cl ["sky-bench"; "--rowcount=500"])) (AcArgs [(bstr "--rowcount", bstr "500")])) by (apply C103_arguments_exact; vm_compute; reflexivity).
  split; [exact (proj1 R)|]. split; [|intros D; discriminate D]. intros v [G|[]]. discriminate G.
Qed.

Print Assumptions C120_accepted_partial.
Print Assumptions C120_complaint.
Print Assumptions C120_key_complaint.
Print Assumptions C120_help_exact.
Print Assumptions C120_default_key_refuted.
Print Assumptions C121_keys.
Print Assumptions C121_default_size.
