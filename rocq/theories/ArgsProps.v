(** C103: the client's command line means what it says. C104: the password prompt yields the password typed. *)
From Coq Require Import Strings.String.
From Coq Require Import List NArith Bool Lia Arith.
From Verif Require Import Bytes AMap ConfigModel ConfigSpec ConfigProofs ArgsModel.
Import ListNotations.
Local Open Scope string_scope.
Local Open Scope list_scope.
Local Open Scope N_scope.

(** ** Specification of command lines *)
Definition keys (m : list (bytes * bytes)) : list bytes := map fst m.
Definition flag (a : bytes) : Prop := a = bstr "--help" \/ a = bstr "--version".
(** options with their values: [name=value], or [name] and [value] *)
Inductive cmdline : list bytes -> list (bytes * bytes) -> Prop :=
| cl_nil : cmdline [] []
| cl_eq k v l m : free x3d k -> free x3d v -> cmdline l m -> cmdline ((k ++ bstr "=" ++ v) :: l) ((k, v) :: m)
| cl_two k v l m : free x3d k -> ~ flag k -> cmdline l m -> cmdline (k :: v :: l) ((k, v) :: m).
(** what is to be made of a list of arguments: everything before the first thing that is not another new option is in order *)
Definition reading (l : list bytes) (a : action) : Prop :=
  match a with
  | AcArgs m => cmdline l m /\ NoDup (keys m)
  | AcHelp => exists pre m rest, l = pre ++ bstr "--help" :: rest /\ cmdline pre m /\ NoDup (keys m)
  | AcVersion => exists pre m rest, l = pre ++ bstr "--version" :: rest /\ cmdline pre m /\ NoDup (keys m)
  | AcDuplicate k => exists pre m o v rest, l = pre ++ o ++ rest /\ cmdline pre m /\ NoDup (keys m) /\ cmdline o [(k, v)] /\ In k (keys m)
  | AcMissing a => exists pre m rest, l = pre ++ a :: rest /\ cmdline pre m /\ NoDup (keys m) /\
      ((rest = [] /\ free x3d a /\ ~ flag a) \/ exists x y z, a = x ++ bstr "=" ++ y ++ bstr "=" ++ z)
  end.
Section Meaning.
Variable files : bytes -> option bytes.
Variable env_password prompt : option bytes.
Variable kv : list (bytes * bytes).
Definition given (k v : bytes) : Prop := In (k, v) kv.
Definition absent (k : bytes) : Prop := forall v, ~ given k v.
Definition options : list bytes := [bstr "--endpoint"; bstr "--tls-cert"; bstr "--user"; bstr "--password"; bstr "--eval"].
(** as in cli/help_text/help *)
Record meaning (c : client) (ev : option bytes) : Prop := {
  me_known : forall k v, given k v -> In k options;
  me_conn : (absent (bstr "--endpoint") /\ absent (bstr "--tls-cert") /\ k_conn c = CTcp (bstr "127.0.0.1") 2003) \/
            (exists e h p, given (bstr "--endpoint") e /\ ep_text PTcp e h p /\ k_conn c = CTcp h p) \/
            (exists e h p path text, given (bstr "--endpoint") e /\ ep_text PTls e h p /\ given (bstr "--tls-cert") path /\ files path = Some text /\ k_conn c = CTls h p text);
  me_user : given (bstr "--user") (k_user c) \/ (absent (bstr "--user") /\ k_user c = bstr "root");
  me_pass : given (bstr "--password") (k_pass c) \/ (absent (bstr "--password") /\ env_password = Some (k_pass c)) \/
            (absent (bstr "--password") /\ env_password = None /\ prompt = Some (k_pass c));
  me_eval : match ev with Some q => given (bstr "--eval") q | None => absent (bstr "--eval") end }.
End Meaning.
Definition task_of (c : client) (ev : option bytes) : task := match ev with Some q => TExec c q | None => TShell c end.

(** ** Proofs *)
Definition byte_eq_dec' : forall a b : byte, {a = b} + {a <> b} := Byte.byte_eq_dec.
Lemma lookup_in k m : forall v, lookup k m = Some v -> In (k, v) m.
Proof.
  induction m as [|[x y] m IH]; intros v H; cbn [lookup] in H; [discriminate H|]. destruct (beqb x k) eqn:E.
  - apply beqb_eq in E. injection H as ->. left. congruence.
  - right. now apply IH.
Qed.
Lemma lookup_none k m : lookup k m = None <-> ~ In k (keys m).
Proof.
  induction m as [|[x y] m IH]; cbn [lookup keys map fst In]; [tauto|]. destruct (beqb x k) eqn:E.
  - apply beqb_eq in E. split; [intros H; discriminate H|intros H; exfalso; apply H; now left].
  - apply beqb_neq in E. unfold keys in IH. tauto.
Qed.
Lemma in_keys k m : In k (keys m) <-> exists v, In (k, v) m.
Proof.
  unfold keys. rewrite in_map_iff. split.
  - intros ([x v] & E & I). cbn in E. subst x. now exists v.
  - intros (v & I). now exists (k, v).
Qed.
Lemma nodup_fun k v w m : NoDup (keys m) -> In (k, v) m -> In (k, w) m -> v = w.
Proof.
  induction m as [|[x y] m IH]; intros ND A B; [destruct A|]. inversion ND as [|? ? N1 N2]; subst.
  destruct A as [A|A], B as [B|B].
  - congruence.
  - exfalso. apply N1. injection A as -> ->. apply in_keys. now exists w.
  - exfalso. apply N1. injection B as -> ->. apply in_keys. now exists v.
  - now apply IH.
Qed.
Lemma lookup_iff k m v : NoDup (keys m) -> (lookup k m = Some v <-> In (k, v) m).
Proof.
  intros ND. split; [apply lookup_in|]. intros I. destruct (lookup k m) as [w|] eqn:E.
  - apply lookup_in in E. f_equal. exact (nodup_fun k w v m ND E I).
  - apply lookup_none in E. exfalso. apply E. apply in_keys. now exists v.
Qed.
Lemma lookup_absent k m : lookup k m = None <-> absent m k.
Proof. rewrite lookup_none, in_keys. unfold absent, given. firstorder. Qed.
Lemma remove_in k v x m : In (k, v) (remove x m) <-> In (k, v) m /\ k <> x.
Proof.
  induction m as [|[y w] m IH]; cbn [remove In]; [tauto|]. destruct (beqb y x) eqn:E.
  - apply beqb_eq in E. subst y. rewrite IH. split; [tauto|]. intros [[H|H] D]; [congruence|tauto].
  - apply beqb_neq in E. cbn [In]. rewrite IH. split; [|tauto]. intros [H|H]; [|tauto]. split; [now left|]. congruence.
Qed.
Lemma remove_lookup k x m : k <> x -> lookup k (remove x m) = lookup k m.
Proof.
  intros D. induction m as [|[y w] m IH]; cbn [remove lookup]; [reflexivity|]. destruct (beqb y x) eqn:E.
  - apply beqb_eq in E. subst y. apply not_eq_sym in D. apply beqb_neq in D. now rewrite D.
  - cbn [lookup]. now rewrite IH.
Qed.
Lemma nil_iff (m : list (bytes * bytes)) : m = [] <-> forall k v, ~ In (k, v) m.
Proof. split; [intros -> k v []|]. destruct m as [|[k v] m]; [reflexivity|]. intros H. exfalso. apply (H k v). now left. Qed.

Lemma cmdline_app a b m n : cmdline a m -> cmdline b n -> cmdline (a ++ b) (m ++ n).
Proof. induction 1; intros B; cbn [app]; [exact B|constructor; auto|constructor; auto]. Qed.
Lemma eq_not_flag k v : ~ flag (k ++ bstr "=" ++ v).
Proof.
  assert (G : forall s, free x3d s -> k ++ bstr "=" ++ v <> s).
  { intros s F E. apply F. rewrite <- E. apply in_or_app. right. now left. }
  intros [E|E]; (revert E; apply G); unfold free; cbn; intros H; decompose [or] H; try congruence; assumption.
Qed.
Lemma flag_dec a : beqb a (bstr "--help") = false -> beqb a (bstr "--version") = false -> ~ flag a.
Proof. intros A B [E|E]; subst a; rewrite beqb_refl in *; congruence. Qed.
Lemma flag_false a : ~ flag a -> beqb a (bstr "--help") = false /\ beqb a (bstr "--version") = false.
Proof. unfold flag. intros H. split; apply beqb_neq; tauto. Qed.
Lemma split_eq k v : free x3d k -> free x3d v -> split_on x3d (k ++ bstr "=" ++ v) = [k; v].
Proof. intros A B. apply split_two. auto. Qed.
Lemma deny_app pre m : cmdline pre m -> forall m0 rest, NoDup (keys (m0 ++ m)) -> deny_loop (pre ++ rest) m0 = deny_loop rest (m0 ++ m).
Proof.
  induction 1 as [|k v l m F G C IH|k v l m F G C IH]; intros m0 rest ND; cbn [app].
  - now rewrite app_nil_r.
  - cbn [deny_loop]. destruct (flag_false _ (eq_not_flag k v)) as [-> ->]. rewrite (split_eq k v F G).
    assert (L : lookup k m0 = None).
    { apply lookup_none. unfold keys in *. rewrite map_app in ND. cbn [map fst] in ND. apply NoDup_remove_2 in ND. intros I. apply ND. apply in_or_app. now left. }
    rewrite L. change ((k, v) :: m) with ([(k, v)] ++ m) in *. rewrite app_assoc in *. now apply IH.
  - cbn [deny_loop]. destruct (flag_false _ G) as [-> ->]. rewrite (split_free _ _ F).
    assert (L : lookup k m0 = None).
    { apply lookup_none. unfold keys in *. rewrite map_app in ND. cbn [map fst] in ND. apply NoDup_remove_2 in ND. intros I. apply ND. apply in_or_app. now left. }
    rewrite L. change ((k, v) :: m) with ([(k, v)] ++ m) in *. rewrite app_assoc in *. now apply IH.
Qed.
Lemma split_many c s : (exists x y z, s = x ++ c :: y ++ c :: z) <-> (forall x, split_on c s <> [x]) /\ (forall x y, split_on c s <> [x; y]).
Proof.
  split.
  - intros (x & y & z & ->). split.
    + intros t E. apply split_one in E as [F _]. apply F. apply in_or_app. right. now left.
    + intros t u E. apply split_two in E as (F & G & E). revert t F E. induction x as [|b x IH]; intros t F E.
      * destruct t as [|d t]; cbn [app] in E; [|injection E as <- _; apply F; now left]. injection E as <-. apply G. apply in_or_app. right. now left.
      * destruct t as [|d t]; cbn [app] in E.
        -- injection E as _ <-. apply G. apply in_or_app. right. now left.
        -- injection E as <- E. apply (IH t); [intros I; apply F; now right|exact E].
  - intros [A B]. destruct (split_join c s) as (N & FR & J). destruct (split_on c s) as [|p [|q [|r l]]]; [contradiction|destruct (A p eq_refl)|destruct (B p q eq_refl)|].
    cbn [joinc] in J. exists p, q. rewrite <- J. destruct l as [|t l]; eauto.
Qed.
Lemma reading_deny l a : reading l a -> deny_loop l [] = a.
Proof.
  destruct a as [| |m|k|a]; cbn [reading].
  - intros (pre & m & rest & -> & C & ND). rewrite (deny_app pre m C [] _ ND). reflexivity.
  - intros (pre & m & rest & -> & C & ND). rewrite (deny_app pre m C [] _ ND). reflexivity.
  - intros [C ND]. rewrite <- (app_nil_r l). rewrite (deny_app l m C [] _ ND). reflexivity.
  - intros (pre & m & o & v & rest & -> & C & ND & O & I). rewrite (deny_app pre m C [] _ ND). cbn [app].
    assert (L : exists w, lookup k m = Some w). { destruct (lookup k m) as [w|] eqn:L; [now exists w|]. apply lookup_none in L. contradiction. }
    destruct L as [w L]. inversion O as [|k' v' l' m' F G C'|k' v' l' m' F G C']; subst.
    + cbn [app deny_loop]. destruct (flag_false _ (eq_not_flag k v)) as [-> ->]. rewrite (split_eq k v F G), L. reflexivity.
    + cbn [app deny_loop]. destruct (flag_false _ G) as [-> ->]. rewrite (split_free _ _ F), L. reflexivity.
  - intros (pre & m & rest & -> & C & ND & H). rewrite (deny_app pre m C [] _ ND). cbn [app].
    destruct H as [(-> & F & NF)|(x & y & z & ->)].
    + cbn [deny_loop]. destruct (flag_false _ NF) as [-> ->]. now rewrite (split_free _ _ F).
    + cbn [deny_loop]. destruct (flag_false _ (eq_not_flag x (y ++ bstr "=" ++ z))) as [-> ->].
      destruct (proj1 (split_many x3d (x ++ bstr "=" ++ y ++ bstr "=" ++ z))) as [A B]; [now exists x, y, z|].
      destruct (split_on x3d (x ++ bstr "=" ++ y ++ bstr "=" ++ z)) as [|p [|q [|r t]]]; [reflexivity|destruct (A p eq_refl)|destruct (B p q eq_refl)|reflexivity].
Qed.
Lemma reading_total n : forall l pre m, (List.length l <= n)%nat -> cmdline pre m -> NoDup (keys m) -> exists a, reading (pre ++ l) a.
Proof.
  induction n as [|n IH]; intros l pre m LN C ND; (destruct l as [|a l]; [exists (AcArgs m); rewrite app_nil_r; now split|]); [cbn [List.length] in LN; lia|].
  destruct (beqb a (bstr "--help")) eqn:HE. { apply beqb_eq in HE. subst a. exists AcHelp, pre, m, l. auto. }
  destruct (beqb a (bstr "--version")) eqn:VE. { apply beqb_eq in VE. subst a. exists AcVersion, pre, m, l. auto. }
  pose proof (flag_dec a HE VE) as NF. cbn [List.length] in LN.
  assert (EXT : forall k v o rest, cmdline o [(k, v)] -> (List.length rest <= n)%nat -> exists x, reading (pre ++ o ++ rest) x).
  { intros k v o rest O LR. destruct (lookup k m) as [w|] eqn:L.
    - exists (AcDuplicate k), pre, m, o, v, rest. split; [reflexivity|]. split; [exact C|]. split; [exact ND|]. split; [exact O|].
      apply lookup_in in L. apply in_keys. now exists w.
    - rewrite app_assoc. apply (IH rest (pre ++ o) (m ++ [(k, v)])); [exact LR|now apply cmdline_app|].
      apply lookup_none in L. unfold keys in *. rewrite map_app. cbn [map fst]. apply (NoDup_Add (a := k) (l := map fst m)); [|split; assumption].
      rewrite <- (app_nil_r (map fst m)) at 1. apply Add_app. }
  destruct (split_on x3d a) as [|p [|q [|r t]]] eqn:S.
  - destruct (proj1 (split_join x3d a) S).
  - apply split_one in S as [F _]. destruct l as [|v l].
    + exists (AcMissing a), pre, m, []. split; [reflexivity|]. split; [exact C|]. split; [exact ND|]. left. auto.
    + apply (EXT a v [a; v] l); [constructor; [exact F|exact NF|constructor]|cbn [List.length] in LN; lia].
  - apply split_two in S as (F & G & ->). apply (EXT p q [p ++ bstr "=" ++ q] l); [constructor; [exact F|exact G|constructor]|lia].
  - exists (AcMissing a), pre, m, l. split; [reflexivity|]. split; [exact C|]. split; [exact ND|]. right.
    apply (proj2 (split_many x3d a)). rewrite S. split; intros; discriminate.
Qed.
Lemma deny_reading l a : deny_loop l [] = a <-> reading l a.
Proof.
  split; [|apply reading_deny]. intros <-. destruct (reading_total (List.length l) l [] [] (le_n _) cl_nil (NoDup_nil _)) as [a R]. cbn [app] in R.
  now rewrite (reading_deny l a R).
Qed.

Ltac differ := let H := fresh in intros H; apply beqb_eq in H; vm_compute in H; discriminate H.

Section Parse.
Variable files : bytes -> option bytes.
Variable env_password prompt : option bytes.
(** the endpoint, and what is left of the arguments *)
Lemma conn_iff m c m' : NoDup (keys m) ->
  (parse_conn files m = inl (c, m') <->
    (absent m (bstr "--endpoint") /\ c = CTcp (bstr "127.0.0.1") 2003 /\ m' = m) \/
    ((exists e h p, given m (bstr "--endpoint") e /\ ep_text PTcp e h p /\ c = CTcp h p) \/
     (exists e h p path text, given m (bstr "--endpoint") e /\ ep_text PTls e h p /\ given m (bstr "--tls-cert") path /\ files path = Some text /\ c = CTls h p text)) /\
    m' = remove (bstr "--tls-cert") (remove (bstr "--endpoint") m)).
Proof.
  intros ND. unfold parse_conn, given. rewrite remove_lookup by differ. destruct (lookup (bstr "--endpoint") m) as [ep|] eqn:E.
  2:{ apply lookup_absent in E. split.
      - intros H. injection H as <- <-. left. auto.
      - intros [(_ & -> & ->)|([(e & h & p & G & _)|(e & h & p & pa & te & G & _)] & _)]; [reflexivity| |]; destruct (E _ G). }
  assert (PE : forall pr h p, parse_endpoint SCli ep = COk (pr, h, p) <-> ep_text pr ep h p) by (intros; apply parse_endpoint_iff).
  pose proof (lookup_in _ _ _ E) as IE.
  assert (UNI : forall e, In (bstr "--endpoint", e) m -> e = ep) by (intros e I; exact (nodup_fun _ _ _ m ND I IE)).
  assert (NA : ~ absent m (bstr "--endpoint")) by (intros A; apply (A ep IE)).
  unfold parse_endpoint in PE.
  assert (NO : (forall pr h p, ~ ep_text pr ep h p) -> ~ ((absent m (bstr "--endpoint") /\ c = CTcp (bstr "127.0.0.1") 2003 /\ m' = m) \/
    ((exists e h p, In (bstr "--endpoint", e) m /\ ep_text PTcp e h p /\ c = CTcp h p) \/
     (exists e h p path text, In (bstr "--endpoint", e) m /\ ep_text PTls e h p /\ In (bstr "--tls-cert", path) m /\ files path = Some text /\ c = CTls h p text)) /\
    m' = remove (bstr "--tls-cert") (remove (bstr "--endpoint") m))).
  { intros N [(A & _)|([(e & h & p & G & T & _)|(e & h & p & pa & te & G & T & _)] & _)]; [exact (NA A)| |]; rewrite (UNI e G) in T; exact (N _ _ _ T). }
  destruct (split_on x40 ep) as [|pr [|hp [|z t]]].
  1,2,4: split; [intros H; discriminate H|intros H; exfalso; revert H; apply NO; intros pr' h p T; apply PE in T; discriminate T].
  destruct (split_on x3a hp) as [|host [|port [|z t]]].
  1,2,4: split; [intros H; discriminate H|intros H; exfalso; revert H; apply NO; intros pr' h p T; apply PE in T; discriminate T].
  destruct (parse_uint u16_max port) as [n|].
  2: split; [intros H; discriminate H|intros H; exfalso; revert H; apply NO; intros pr' h p T; apply PE in T; discriminate T].
  destruct (beqb pr (bstr "tcp")).
  { assert (T0 : ep_text PTcp ep host n) by (now apply PE). split.
    - intros H. injection H as <- <-. right. split; [|reflexivity]. left. exists ep, host, n. auto.
    - intros [(A & _)|([(e & h & p & G & T & ->)|(e & h & p & pa & te & G & T & _)] & ->)]; [destruct (NA A)| |]; rewrite (UNI e G) in T; apply PE in T.
      + injection T as <- <-. reflexivity.
      + discriminate T. }
  destruct (beqb pr (bstr "tls")).
  2: split; [intros H; discriminate H|intros H; exfalso; revert H; apply NO; intros pr' h p T; apply PE in T; discriminate T].
  assert (T0 : ep_text PTls ep host n) by (now apply PE).
  destruct (lookup (bstr "--tls-cert") m) as [path|] eqn:CE.
  - destruct (files path) as [text|] eqn:FE.
    + split.
      * intros H. injection H as <- <-. right. split; [|reflexivity]. right. exists ep, host, n, path, text. apply lookup_in in CE. auto.
      * intros [(A & _)|([(e & h & p & G & T & ->)|(e & h & p & pa & te & G & T & GC & FF & ->)] & ->)]; [destruct (NA A)| |]; rewrite (UNI e G) in T; apply PE in T.
        -- discriminate T.
        -- injection T as <- <-. apply (lookup_iff _ _ _ ND) in GC. congruence.
    + split; [intros H; discriminate H|].
      intros [(A & _)|([(e & h & p & G & T & ->)|(e & h & p & pa & te & G & T & GC & FF & ->)] & ->)]; [destruct (NA A)| |]; rewrite (UNI e G) in T; apply PE in T.
      * discriminate T.
      * apply (lookup_iff _ _ _ ND) in GC. congruence.
  - split; [intros H; discriminate H|].
    intros [(A & _)|([(e & h & p & G & T & ->)|(e & h & p & pa & te & G & T & GC & FF & ->)] & ->)]; [destruct (NA A)| |]; rewrite (UNI e G) in T; apply PE in T.
    + discriminate T.
    + apply (lookup_iff _ _ _ ND) in GC. congruence.
Qed.
Lemma left_iff m m' : (m' = m /\ absent m (bstr "--endpoint")) \/ m' = remove (bstr "--tls-cert") (remove (bstr "--endpoint") m) ->
  (remove (bstr "--eval") (remove (bstr "--password") (remove (bstr "--user") m')) = [] <->
   (forall k v, In (k, v) m -> In k options) /\ (m' = m -> absent m (bstr "--tls-cert"))).
Proof.
  intros H. rewrite nil_iff. unfold absent, given in *. split.
  - intros N. split.
    + intros k v I. unfold options. cbn [In]. destruct H as [[-> A]| ->].
      * specialize (N k v). rewrite !remove_in in N. pose proof (A v). destruct (list_eq_dec byte_eq_dec' k (bstr "--user")); [auto 8|].
        destruct (list_eq_dec byte_eq_dec' k (bstr "--password")); [auto 8|]. destruct (list_eq_dec byte_eq_dec' k (bstr "--eval")); [auto 8|]. tauto.
      * specialize (N k v). rewrite !remove_in in N.
        destruct (list_eq_dec byte_eq_dec' k (bstr "--user")); [auto 8|]. destruct (list_eq_dec byte_eq_dec' k (bstr "--password")); [auto 8|].
        destruct (list_eq_dec byte_eq_dec' k (bstr "--eval")); [auto 8|]. destruct (list_eq_dec byte_eq_dec' k (bstr "--endpoint")); [auto 8|].
        destruct (list_eq_dec byte_eq_dec' k (bstr "--tls-cert")); [auto 8|]. tauto.
    + intros E v I. apply (N (bstr "--tls-cert") v). rewrite !remove_in, E. split; [split; [split; [exact I|]|]|]; differ.
  - intros [K T] k v I. rewrite !remove_in in I. destruct I as [[[I D1] D2] D3].
    assert (I' : In (k, v) m). { destruct H as [[-> _]| ->]; [exact I|]. rewrite !remove_in in I. tauto. }
    pose proof (K k v I') as O. unfold options in O. cbn [In] in O. destruct O as [<-|[<-|[<-|[<-|[<-|[]]]]]]; try (now apply D1); try (now apply D2); try (now apply D3).
    + destruct H as [[-> A]| ->]; [exact (A v I)|]. rewrite !remove_in in I. tauto.
    + destruct H as [[-> A]| ->]; [exact (T eq_refl v I)|]. rewrite !remove_in in I. tauto.
Qed.
Lemma exact_args m c ev : NoDup (keys m) ->
  ((match parse_conn files m with
    | inr e => inr e
    | inl (c, m) =>
          let user := match lookup (bstr "--user") m with Some u => u | None => bstr "root" end in
          let m := remove (bstr "--user") m in
          match parse_pass env_password prompt m with
          | None => inr XIo
          | Some pass =>
              let m := remove (bstr "--password") m in
              let eval := lookup (bstr "--eval") m in
              match remove (bstr "--eval") m with
              | [] => inl (match eval with Some q => TExec (mk_client c user pass) q | None => TShell (mk_client c user pass) end)
              | _ => inr XUnknown
              end
          end
    end) = inl (task_of c ev) <-> meaning files env_password prompt m c ev).
Proof.
  intros ND. assert (LI : forall k v, lookup k m = Some v <-> given m k v) by (intros; apply lookup_iff; exact ND).
  assert (LA : forall k, lookup k m = None <-> absent m k) by (intros; apply lookup_absent).
  cbv zeta. destruct (parse_conn files m) as [[c0 m1]|e] eqn:PC.
  - assert (CI := proj1 (conn_iff m c0 m1 ND) PC).
    assert (M1 : (m1 = m /\ absent m (bstr "--endpoint")) \/ m1 = remove (bstr "--tls-cert") (remove (bstr "--endpoint") m)).
    { destruct CI as [(A & _ & ->)|(_ & ->)]; auto. }
    assert (SAME : forall k, k <> bstr "--endpoint" -> k <> bstr "--tls-cert" -> lookup k m1 = lookup k m).
    { intros k D1 D2. destruct M1 as [[-> _]| ->]; [reflexivity|]. now rewrite !remove_lookup. }
    assert (U : lookup (bstr "--user") m1 = lookup (bstr "--user") m) by (apply SAME; differ).
    assert (P : lookup (bstr "--password") (remove (bstr "--user") m1) = lookup (bstr "--password") m) by (rewrite remove_lookup by differ; apply SAME; differ).
    assert (EV : lookup (bstr "--eval") (remove (bstr "--password") (remove (bstr "--user") m1)) = lookup (bstr "--eval") m)
      by (rewrite !remove_lookup by differ; apply SAME; differ).
    pose proof (left_iff m m1 M1) as LF. unfold parse_pass. rewrite U, P, EV. split.
    + intros H.
      destruct (match lookup (bstr "--password") m with Some p => Some p | None => match env_password with Some p => Some p | None => prompt end end) as [pass|] eqn:PW; [|discriminate H].
      destruct (remove (bstr "--eval") (remove (bstr "--password") (remove (bstr "--user") m1))) eqn:RM; [|discriminate H].
      destruct (proj1 LF eq_refl) as [KN TC].
      assert (X : c = mk_client c0 (match lookup (bstr "--user") m with Some u => u | None => bstr "root" end) pass /\ ev = lookup (bstr "--eval") m).
      { unfold task_of in H. destruct (lookup (bstr "--eval") m), ev; try discriminate H; injection H as H; (split; congruence). }
      destruct X as [-> ->]. constructor; cbn [k_conn k_user k_pass].
      * exact KN.
      * destruct CI as [(A & -> & E1)|([Q|Q] & _)]; [left; auto|right; left; exact Q|right; right; exact Q].
      * destruct (lookup (bstr "--user") m) as [u|] eqn:E; [left; now apply LI|right; split; [now apply LA|reflexivity]].
      * destruct (lookup (bstr "--password") m) as [u|] eqn:E; [left; apply LI; congruence|]. apply LA in E. right.
        destruct env_password; [left; split; [exact E|exact PW]|right; auto].
      * destruct (lookup (bstr "--eval") m) as [q|] eqn:E; [now apply LI|now apply LA].
    + intros [KN CN US PW EVL].
      assert (PWE : match lookup (bstr "--password") m with Some p => Some p | None => match env_password with Some p => Some p | None => prompt end end = Some (k_pass c)).
      { destruct PW as [G|[[A ->]|(A & -> & ->)]]; [apply LI in G; now rewrite G|apply LA in A; now rewrite A|apply LA in A; now rewrite A]. }
      rewrite PWE.
      assert (USE : match lookup (bstr "--user") m with Some u => u | None => bstr "root" end = k_user c).
      { destruct US as [G|[A ->]]; [apply LI in G; now rewrite G|apply LA in A; now rewrite A]. }
      rewrite USE.
      assert (EVE : lookup (bstr "--eval") m = ev) by (destruct ev; [now apply LI|now apply LA]). rewrite EVE.
      assert (CE : parse_conn files m = inl (k_conn c, m1)).
      { apply (conn_iff m (k_conn c) m1 ND). destruct CN as [(A & T & ->)|Q].
        - left. destruct CI as [(_ & _ & ->)|([(e & h & p & G & _)|(e & h & p & pa & te & G & _)] & _)]; [auto| |]; destruct (A _ G).
        - right. split; [exact Q|]. destruct CI as [(A & _ & _)|(_ & ->)]; [|reflexivity].
          destruct Q as [(e & h & p & G & _)|(e & h & p & pa & te & G & _)]; destruct (A _ G). }
      assert (C0 : c0 = k_conn c) by congruence. subst c0.
      assert (RM : remove (bstr "--eval") (remove (bstr "--password") (remove (bstr "--user") m1)) = []).
      { apply LF. split; [exact KN|]. intros ->. destruct CN as [(_ & T & _)|Q]; [exact T|].
        destruct M1 as [[_ A]|M1]; [destruct Q as [(e & h & p & G & _)|(e & h & p & pa & te & G & _)]; destruct (A _ G)|].
        intros v G. unfold given in G. rewrite M1, remove_in in G. now apply (proj2 G). }
      rewrite RM. destruct c. reflexivity.
  - split; [intros H; discriminate H|]. intros [_ CN _ _ _]. exfalso.
    assert (X : exists m', parse_conn files m = inl (k_conn c, m')).
    { destruct CN as [(A & T & E)|Q]; [exists m|exists (remove (bstr "--tls-cert") (remove (bstr "--endpoint") m))]; apply (conn_iff m _ _ ND); [left; auto|right; auto]. }
    destruct X as [m' X]. congruence.
Qed.
End Parse.

(** ** C103 *)
(** The arguments as such: for every list of them, exactly what the specification reads. *)
Theorem C103_arguments_exact argv a : parse_args_deny_duplicate argv = a <-> reading (tl argv) a.
Proof. apply deny_reading. Qed.
Example C103_arguments_example :
  parse_args_deny_duplicate [bstr "skysh"; bstr "--user=alice"; bstr "--eval"; bstr "select * from a.b where x = ?"] =
    AcArgs [(bstr "--user", bstr "alice"); (bstr "--eval", bstr "select * from a.b where x = ?")] /\
  parse_args_deny_duplicate [bstr "skysh"; bstr "--user"; bstr "--help"; bstr "--help"; bstr "x=y=z"] = AcHelp /\
  parse_args_deny_duplicate [bstr "skysh"; bstr "--user=a"; bstr "--user"; bstr "b"] = AcDuplicate (bstr "--user") /\
  parse_args_deny_duplicate [bstr "skysh"; bstr "--user=a"; bstr "--eval"] = AcMissing (bstr "--eval").
Proof. repeat split; vm_compute; reflexivity. Qed.

(** Full statement: every command line of named options with values, in any of the two forms, is accepted with what it names. It is refuted below: the form
    [name=value] takes no value with an equals sign. Without such values, and with hosts without a colon, it holds exactly: a connection is opened (for a
    shell, or for one query) with these parameters if and only if the options, each once, say so. *)
Theorem C103_accepted_partial files env prompt argv c ev :
  parse files env prompt argv = inl (task_of c ev) <->
  exists kv, cmdline (tl argv) kv /\ NoDup (keys kv) /\ meaning files env prompt kv c ev.
Proof.
  unfold parse. destruct (parse_args_deny_duplicate argv) as [| |m|k|a] eqn:E.
  1,2: split; [unfold task_of; destruct ev; intros H; discriminate H|intros (kv & C & ND & _); pose proof (proj2 (C103_arguments_exact argv (AcArgs kv)) (conj C ND)); congruence].
  2,3: split; [intros H; discriminate H|intros (kv & C & ND & _); pose proof (proj2 (C103_arguments_exact argv (AcArgs kv)) (conj C ND)); congruence].
  apply C103_arguments_exact in E. destruct E as [C ND]. rewrite (exact_args files env prompt m c ev ND). split.
  - intros M. exists m. auto.
  - intros (kv & C' & ND' & M). pose proof (reading_deny (tl argv) (AcArgs m) (conj C ND)). pose proof (reading_deny (tl argv) (AcArgs kv) (conj C' ND')). congruence.
Qed.
Example C103_accepted_example :
  parse (fun p => if beqb p (bstr "c.pem") then Some (bstr "CERT") else None) (Some (bstr "secret")) None
    [bstr "skysh"; bstr "--endpoint=tls@db.local:2004"; bstr "--tls-cert"; bstr "c.pem"; bstr "--eval"; bstr "inspect global"] =
  inl (TExec (mk_client (CTls (bstr "db.local") 2004 (bstr "CERT")) (bstr "root") (bstr "secret")) (bstr "inspect global")).
Proof. vm_compute. reflexivity. Qed.
(** help and version, exactly *)
Theorem C103_help_exact files env prompt argv :
  (parse files env prompt argv = inl THelp <-> reading (tl argv) AcHelp) /\ (parse files env prompt argv = inl TVersion <-> reading (tl argv) AcVersion).
Proof.
  rewrite <- !C103_arguments_exact. unfold parse. destruct (parse_args_deny_duplicate argv) as [| |m|k|a].
  3: { assert (X : forall t, (t = THelp \/ t = TVersion) -> match parse_conn files m with
       | inl (c0, m0) => match parse_pass env prompt (remove (bstr "--user") m0) with
           | Some pass => match remove (bstr "--eval") (remove (bstr "--password") (remove (bstr "--user") m0)) with
               | [] => inl (match lookup (bstr "--eval") (remove (bstr "--password") (remove (bstr "--user") m0)) with
                            | Some q => TExec (mk_client c0 (match lookup (bstr "--user") m0 with Some u => u | None => bstr "root" end) pass) q
                            | None => TShell (mk_client c0 (match lookup (bstr "--user") m0 with Some u => u | None => bstr "root" end) pass) end)
               | _ :: _ => inr XUnknown end
           | None => inr XIo end
       | inr e => inr e end <> inl t).
       { intros t T. destruct (parse_conn files m) as [[c0 m0]|e]; [|discriminate]. destruct (parse_pass env prompt _); [|discriminate].
         destruct (remove (bstr "--eval") _); [|discriminate]. destruct (lookup (bstr "--eval") _); destruct T as [-> | ->]; discriminate. }
       split; (split; [intros H; exfalso; revert H; apply X; auto|intros H; discriminate H]). }
  all: split; split; intros H; congruence.
Qed.
(** An option written with an equals sign and a value that has one is never accepted, whatever stands around it. *)
Theorem C103_equals_sign files env prompt prog pre kv k v rest :
  cmdline pre kv -> NoDup (keys kv) -> In x3d v ->
  parse files env prompt (prog :: pre ++ (k ++ bstr "=" ++ v) :: rest) = inr (XArgs (AcMissing (k ++ bstr "=" ++ v))).
Proof.
  intros C ND I. unfold parse. assert (E : parse_args_deny_duplicate (prog :: pre ++ (k ++ bstr "=" ++ v) :: rest) = AcMissing (k ++ bstr "=" ++ v)).
  { apply C103_arguments_exact. cbn [tl]. exists pre, kv, rest. split; [reflexivity|]. split; [exact C|]. split; [exact ND|]. right.
    apply in_split in I as (y & z & ->). exists k, y, z. reflexivity. }
  now rewrite E.
Qed.
(** a password with an equals sign; a query with one *)
Theorem C103_value_refuted : exists argv k v files env prompt, argv = [bstr "skysh"; k ++ bstr "=" ++ v] /\ In k options /\
  parse files env prompt argv = inr (XArgs (AcMissing (bstr "--password=c2VjcmV0=="))) /\
  exists t, parse files env prompt [bstr "skysh"; k; v] = inl t.
Proof.
  exists [bstr "skysh"; bstr "--password=c2VjcmV0=="], (bstr "--password"), (bstr "c2VjcmV0=="), (fun _ => None), None, None.
  split; [vm_compute; reflexivity|]. split; [unfold options; cbn [In]; auto 8|]. split; [vm_compute; reflexivity|]. eexists. vm_compute. reflexivity.
Qed.
(** No host with a colon in it - no IPv6 address - can be named. *)
Theorem C103_no_ipv6 files env prompt argv kv e pr h t c ev :
  cmdline (tl argv) kv -> NoDup (keys kv) -> given kv (bstr "--endpoint") e -> e = pr ++ bstr "@" ++ h ++ bstr ":" ++ t -> In x3a h ->
  parse files env prompt argv <> inl (task_of c ev).
Proof.
  intros C ND G -> I H. apply C103_accepted_partial in H as (kv' & C' & ND' & [_ CN _ _ _]).
  assert (kv' = kv). { pose proof (reading_deny (tl argv) (AcArgs kv) (conj C ND)). pose proof (reading_deny (tl argv) (AcArgs kv') (conj C' ND')). congruence. } subst kv'.
  assert (NT : forall q x p, ~ ep_text q (pr ++ bstr "@" ++ h ++ bstr ":" ++ t) x p).
  { intros q x p T. apply (parse_endpoint_iff SCli) in T. unfold parse_endpoint in T.
    destruct (split_on x40 (pr ++ bstr "@" ++ h ++ bstr ":" ++ t)) as [|a [|hp [|z r]]] eqn:S; try discriminate T.
    apply split_two in S as (F & F' & S).
    assert (HP : hp = h ++ bstr ":" ++ t).
    { clear - F F' S. revert a F S. induction pr as [|b pr IH]; intros a F S.
      - destruct a as [|d a]; cbn [app bstr] in S; [injection S as <-; reflexivity|]. exfalso. apply F. injection S as E _. left. symmetry. exact E.
      - destruct a as [|d a]; cbn [app] in S.
        + injection S as _ <-. exfalso. apply F'. apply in_or_app. right. left. reflexivity.
        + injection S as <- S. apply (IH a); [intros X; apply F; now right|exact S]. }
    subst hp. apply in_split in I as (u & w & ->).
    destruct (proj1 (split_many x3a ((u ++ x3a :: w) ++ bstr ":" ++ t))) as [_ B].
    { exists u, w, t. rewrite <- app_assoc. reflexivity. }
    destruct (split_on x3a ((u ++ x3a :: w) ++ bstr ":" ++ t)) as [|b [|d [|z r]]]; try discriminate T. exact (B b d eq_refl). }
  destruct CN as [(A & _)|[(e & x & p & G' & T & _)|(e & x & p & pa & te & G' & T & _)]]; [exact (A _ G)| |];
    rewrite (nodup_fun _ _ _ kv ND G' G) in T; exact (NT _ _ _ T).
Qed.
Example C103_no_ipv6_example : parse (fun _ => None) (Some (bstr "p")) None [bstr "skysh"; bstr "--endpoint"; bstr "tcp@::1:2003"] = inr XEndpoint.
Proof. vm_compute. reflexivity. Qed.
(** A certificate given together with a TCP endpoint is not even looked at: the connection is made in the clear. Given without an endpoint it is refused as an
    unknown argument. *)
Theorem C103_certificate_ignored files pw prompt argv kv path e h p :
  cmdline (tl argv) kv -> NoDup (keys kv) -> (forall k v, given kv k v -> In k options) -> given kv (bstr "--tls-cert") path ->
  given kv (bstr "--endpoint") e -> ep_text PTcp e h p -> given kv (bstr "--password") pw ->
  exists c ev, parse files None prompt argv = inl (task_of c ev) /\ k_conn c = CTcp h p.
Proof.
  intros C ND KN GC GE T GP. set (u := match lookup (bstr "--user") kv with Some u => u | None => bstr "root" end).
  exists (mk_client (CTcp h p) u pw), (lookup (bstr "--eval") kv). split; [|reflexivity]. apply C103_accepted_partial. exists kv. split; [exact C|]. split; [exact ND|].
  constructor; cbn [k_conn k_user k_pass].
  - exact KN.
  - right. left. exists e, h, p. auto.
  - unfold u. destruct (lookup (bstr "--user") kv) eqn:E; [left; now apply lookup_in|right; split; [now apply lookup_absent|reflexivity]].
  - left. exact GP.
  - destruct (lookup (bstr "--eval") kv) eqn:E; [now apply lookup_in|now apply lookup_absent].
Qed.
Example C103_certificate_example :
  parse (fun _ => None) (Some (bstr "p")) None [bstr "skysh"; bstr "--endpoint"; bstr "tcp@db:2003"; bstr "--tls-cert=no-such-file"] =
    inl (TShell (mk_client (CTcp (bstr "db") 2003) (bstr "root") (bstr "p"))) /\
  parse (fun _ => None) (Some (bstr "p")) None [bstr "skysh"; bstr "--tls-cert=c.pem"] = inr XUnknown.
Proof. split; vm_compute; reflexivity. Qed.

(** ** C104 *)
(** Specification: the text made by strokes at the prompt. *)
(** [shown]: does a key stroke with these modifiers count? The modifiers by their bits in crossterm: 0 none, 1 shift, 2 control. *)
Inductive text (shown : N -> bool) : list event -> list N -> Prop :=
| tx_nil : text shown [] []
| tx_char es t c m : text shown es t -> shown m = true -> text shown (es ++ [EKey (KChar c) m Press]) (t ++ [c])
| tx_back es t c m : text shown es (t ++ [c]) -> shown m = true -> text shown (es ++ [EKey KBackspace m Press]) t
| tx_back_nothing es m : text shown es [] -> shown m = true -> text shown (es ++ [EKey KBackspace m Press]) []
| tx_other_key es t m : text shown es t -> text shown (es ++ [EKey KOther m Press]) t
| tx_not_shown es t k m : text shown es t -> shown m = false -> ~ (k = KChar 99 /\ m = 2) -> text shown (es ++ [EKey k m Press]) t
| tx_not_pressed es t k m kd : text shown es t -> kd <> Press -> text shown (es ++ [EKey k m kd]) t
| tx_event es t : text shown es t -> text shown (es ++ [EOther]) t.
Definition plain (m : N) : bool := m =? 0.
(** with the shift key, a key still means its character *)
Definition typed (m : N) : bool := (m =? 0) || (m =? 1).

Lemma loop_app es : forall p r, read_loop p (es ++ r) = match read_loop p es with Waiting q => read_loop q r | o => o end.
Proof.
  induction es as [|e es IH]; intros p r; cbn [read_loop app]; [reflexivity|]. destruct e as [k m kd| |]; [|apply IH|reflexivity].
  destruct kd; try apply IH. destruct (_ && _); [reflexivity|]. destruct (m =? m_none); [|apply IH]. destruct k; try apply IH. reflexivity.
Qed.
Lemma removelast_snoc {A} (l : list A) x : removelast (l ++ [x]) = l.
Proof. rewrite removelast_app by discriminate. cbn [removelast]. apply app_nil_r. Qed.
Lemma waiting_iff es t : read_loop [] es = Waiting t <-> text plain es t.
Proof.
  split.
  - revert t. induction es as [|e es IH] using rev_ind; intros t H; [cbn [read_loop] in H; injection H as <-; constructor|].
    rewrite loop_app in H. destruct (read_loop [] es) as [| | |q] eqn:Q; try discriminate H. specialize (IH q eq_refl).
    cbn [read_loop] in H. destruct e as [k m kd| |]; [|injection H as <-; now constructor|discriminate H].
    destruct kd; [|injection H as <-; constructor; [exact IH|discriminate]|injection H as <-; constructor; [exact IH|discriminate]].
    destruct (match k with KChar c => c =? 99 | _ => false end && (m =? m_control)) eqn:CC; [discriminate H|].
    destruct (m =? m_none) eqn:M.
    + destruct k as [c| | |]; [injection H as <-; now constructor| |discriminate H|injection H as <-; now constructor].
      injection H as <-. destruct q as [|c q _] using rev_ind; [now constructor|]. rewrite removelast_snoc. now apply (tx_back plain es q c).
    + injection H as <-. constructor; [exact IH|exact M|]. intros [-> ->]. discriminate CC.
  - induction 1 as [|es t c m T IH S|es t c m T IH S|es m T IH S|es t m T IH|es t k m T IH S NC|es t k m kd T IH NP|es t T IH]; [reflexivity|..];
      rewrite loop_app, IH; cbn [read_loop].
    + unfold plain in S. change 0 with m_none in S. rewrite S. apply N.eqb_eq in S. subst m. now rewrite andb_false_r.
    + unfold plain in S. change 0 with m_none in S. rewrite S. cbn [andb]. now rewrite removelast_snoc.
    + unfold plain in S. change 0 with m_none in S. now rewrite S.
    + cbn [andb]. now destruct (m =? m_none).
    + unfold plain in S. change 0 with m_none in S. rewrite S. destruct (match k with KChar c => c =? 99 | _ => false end && (m =? m_control)) eqn:CC; [|reflexivity].
      exfalso. apply NC. apply andb_true_iff in CC as [A B]. apply N.eqb_eq in B. destruct k; try discriminate A. apply N.eqb_eq in A. subst. auto.
    + destruct kd; [contradiction|reflexivity|reflexivity].
    + reflexivity.
Qed.
(** Full statement: with [typed] for [plain]. It is refuted below. For strokes without any modifier it holds exactly, for every sequence of events: the
    password is the text made before the first plain Enter, and the terminal is back in its normal mode. *)
Theorem C104_password_partial es t raw :
  read_password es = Password t raw <-> raw = false /\ exists pre rest, es = pre ++ EKey KEnter 0 Press :: rest /\ text plain pre t.
Proof.
  unfold read_password. split.
  - assert (G : forall es pre p, read_loop [] pre = Waiting p -> read_loop p es = Password t raw ->
        raw = false /\ exists pre' rest, pre ++ es = pre' ++ EKey KEnter m_none Press :: rest /\ text plain pre' t).
    { clear. induction es as [|e es IH]; intros pre p W H; [discriminate H|].
      assert (NX : forall q, read_loop p [e] = Waiting q -> read_loop q es = Password t raw ->
        raw = false /\ exists pre' rest, pre ++ e :: es = pre' ++ EKey KEnter m_none Press :: rest /\ text plain pre' t).
      { intros q E R. destruct (IH (pre ++ [e]) q) as (RA & pre' & rest & X & T); [rewrite loop_app, W; exact E|exact R|].
        split; [exact RA|]. exists pre', rest. split; [|exact T]. rewrite <- X, <- app_assoc. reflexivity. }
      change (e :: es) with ([e] ++ es) in H. rewrite loop_app in H. destruct (read_loop p [e]) as [u v|v|v|q] eqn:E; [|discriminate H|discriminate H|now apply (NX q)].
      clear NX. injection H as -> ->. cbn [read_loop] in E. destruct e as [k m kd| |]; [|discriminate E|discriminate E]. destruct kd; [|discriminate E|discriminate E].
      destruct (_ && _); [discriminate E|]. destruct (m =? m_none) eqn:M; [|discriminate E]. apply N.eqb_eq in M. subst m.
      destruct k; try discriminate E. injection E as -> <-. split; [reflexivity|]. exists pre, es. split; [reflexivity|]. now apply waiting_iff. }
    intros H. exact (G es [] [] eq_refl H).
  - intros (-> & pre & rest & -> & T). apply waiting_iff in T. rewrite loop_app, T. reflexivity.
Qed.
Definition strokes : list event := [EKey (KChar 112) 0 Press; EKey (KChar 112) 0 Release; EKey (KChar 120) 0 Press; EKey KBackspace 0 Press; EOther; EKey KOther 0 Press; EKey (KChar 119) 0 Press; EKey KEnter 0 Press; EKey (KChar 97) 0 Press].
Example C104_password_example : read_password strokes = Password [112; 119] false.
Proof. vm_compute. reflexivity. Qed.
(** A stroke with a modifier other than the one that ends the process changes nothing, wherever it comes: a character typed with the shift key is not part of
    the password, and nothing says so. *)
Theorem C104_shifted_lost a k m b : m <> 0 -> m <> 2 -> read_password (a ++ EKey k m Press :: b) = read_password (a ++ b).
Proof.
  intros M1 M2. unfold read_password. change 0 with m_none in M1. change 2 with m_control in M2. rewrite !loop_app. destruct (read_loop [] a); try reflexivity. cbn [read_loop].
  apply N.eqb_neq in M1. apply N.eqb_neq in M2. now rewrite M1, M2, andb_false_r.
Qed.
(** The process ends exactly at a control-C: the letter c with control and nothing else, before any plain Enter; the terminal is back in its normal mode. *)
Theorem C104_interrupted es raw :
  read_password es = Exit raw <-> raw = false /\ exists pre rest t, es = pre ++ EKey (KChar 99) 2 Press :: rest /\ text plain pre t.
Proof.
  unfold read_password. split.
  - assert (G : forall es pre p, read_loop [] pre = Waiting p -> read_loop p es = Exit raw ->
        raw = false /\ exists pre' rest t, pre ++ es = pre' ++ EKey (KChar 99) 2 Press :: rest /\ text plain pre' t).
    { clear. induction es as [|e es IH]; intros pre p W H; [discriminate H|].
      assert (NX : forall q, read_loop p [e] = Waiting q -> read_loop q es = Exit raw ->
        raw = false /\ exists pre' rest t, pre ++ e :: es = pre' ++ EKey (KChar 99) 2 Press :: rest /\ text plain pre' t).
      { intros q E R. destruct (IH (pre ++ [e]) q) as (RA & pre' & rest & t & X & T); [rewrite loop_app, W; exact E|exact R|].
        split; [exact RA|]. exists pre', rest, t. split; [|exact T]. rewrite <- X, <- app_assoc. reflexivity. }
      change (e :: es) with ([e] ++ es) in H. rewrite loop_app in H. destruct (read_loop p [e]) as [u v|v|v|q] eqn:E; [discriminate H| |discriminate H|now apply (NX q)].
      clear NX. injection H as ->. cbn [read_loop] in E. destruct e as [k m kd| |]; [|discriminate E|discriminate E]. destruct kd; [|discriminate E|discriminate E].
      destruct (match k with KChar c => c =? 99 | _ => false end && (m =? m_control)) eqn:CC.
      - injection E as <-. apply andb_true_iff in CC as [A B]. apply N.eqb_eq in B. subst m. destruct k as [c| | |]; try discriminate A. apply N.eqb_eq in A. subst c.
        split; [reflexivity|]. exists pre, es, p. split; [reflexivity|]. now apply waiting_iff.
      - destruct (m =? m_none); [|discriminate E]. destruct k; discriminate E. }
    intros H. exact (G es [] [] eq_refl H).
  - intros (-> & pre & rest & t & -> & T). apply waiting_iff in T. rewrite loop_app, T. reflexivity.
Qed.
Example C104_interrupted_example : read_password [EKey (KChar 99) 0 Press; EKey (KChar 99) 2 Release; EKey (KChar 99) 3 Press; EKey (KChar 99) 2 Press; EKey KEnter 0 Press] = Exit false.
Proof. vm_compute. reflexivity. Qed.
(** the password [Pw]: the shifted letter is lost *)
Theorem C104_typed_refuted : exists es pre t u, es = pre ++ [EKey KEnter m_none Press] /\ text typed pre t /\ read_password es = Password u false /\ u <> t.
Proof.
  exists [EKey (KChar 80) m_shift Press; EKey (KChar 119) m_none Press; EKey KEnter m_none Press], [EKey (KChar 80) m_shift Press; EKey (KChar 119) m_none Press], [80; 119], [119].
  split; [reflexivity|]. split.
  - apply (tx_char typed [EKey (KChar 80) m_shift Press] [80] 119 m_none); [|reflexivity]. apply (tx_char typed [] [] 80 m_shift); [constructor|reflexivity].
  - split; [vm_compute; reflexivity|discriminate].
Qed.
(** If reading an event fails the terminal stays in raw mode; it is put back in the other cases. *)
Theorem C104_raw_mode es : (forall t raw, read_password es = Password t raw -> raw = false) /\ (forall raw, read_password es = Exit raw -> raw = false) /\
  (forall raw, read_password es = Failed raw -> raw = true).
Proof.
  unfold read_password. generalize (@nil N). induction es as [|e es IH]; intros p; cbn [read_loop].
  - split; [|split]; intros; discriminate.
  - destruct e as [k m kd| |]; [|apply IH|split; [|split]; intros; congruence]. destruct kd; try apply IH.
    destruct (_ && _); [split; [|split]; intros; congruence|]. destruct (m =? m_none); [|apply IH].
    destruct k; try apply IH. split; [|split]; intros; congruence.
Qed.
Theorem C104_raw_mode_refuted : exists es, read_password es = Failed true.
Proof. exists [EKey (KChar 112) m_none Press; EFail]. vm_compute. reflexivity. Qed.

Print Assumptions C103_arguments_exact.
Print Assumptions C103_accepted_partial.
Print Assumptions C103_help_exact.
Print Assumptions C103_equals_sign.
Print Assumptions C103_value_refuted.
Print Assumptions C103_no_ipv6.
Print Assumptions C103_certificate_ignored.
Print Assumptions C104_password_partial.
Print Assumptions C104_shifted_lost.
Print Assumptions C104_interrupted.
Print Assumptions C104_typed_refuted.
Print Assumptions C104_raw_mode.
Print Assumptions C104_raw_mode_refuted.
