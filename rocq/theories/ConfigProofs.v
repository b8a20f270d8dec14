(** Proofs about ConfigModel.v. *)
From Coq Require Import Strings.String.
From Coq Require Import List NArith Bool Lia Arith.
From Verif Require Import Bytes AMap ConfigModel ConfigSpec.
Import ListNotations.
Local Open Scope list_scope.
Local Open Scope N_scope.

(** ** Strings *)

Lemma beqb_eq a b : beqb a b = true <-> a = b.
Proof.
  revert b. induction a as [|x a IH]; intros [|y b]; cbn [beqb]; split; intros H; try discriminate H; auto.
  - apply andb_true_iff in H as [H1 H2]. apply Byte.byte_dec_bl in H1. apply IH in H2. congruence.
  - injection H as -> ->. apply andb_true_iff. split; [apply Byte.byte_dec_lb; reflexivity|apply IH; reflexivity].
Qed.
Lemma beqb_refl a : beqb a a = true.
Proof. apply beqb_eq. reflexivity. Qed.
Lemma beqb_neq a b : beqb a b = false <-> a <> b.
Proof. rewrite <- (beqb_eq a b). destruct (beqb a b); split; intros H; congruence. Qed.
Lemma byte_eqb_eq x y : Byte.eqb x y = true <-> x = y.
Proof. split; [apply Byte.byte_dec_bl|apply Byte.byte_dec_lb]. Qed.

Fixpoint joinc (c : byte) (l : list bytes) : bytes :=
  match l with [] => [] | [x] => x | x :: l' => x ++ c :: joinc c l' end.
Lemma split_join c s : split_on c s <> [] /\ Forall (free c) (split_on c s) /\ joinc c (split_on c s) = s.
Proof.
  induction s as [|x s (A & B & C)]; cbn [split_on].
  - split; [discriminate|]. split; [repeat constructor; intros []|reflexivity].
  - destruct (Byte.eqb x c) eqn:E.
    + apply byte_eqb_eq in E. subst x. split; [discriminate|]. split; [constructor; [intros []|exact B]|].
      destruct (split_on c s); [congruence|]. cbn [joinc app]. cbn [joinc] in C. rewrite C. reflexivity.
    + destruct (split_on c s) as [|p ps]; [congruence|]. split; [discriminate|]. inversion B as [|? ? B1 B2]; subst. split.
      * constructor; [|exact B2]. intros [H|H]; [|apply (B1 H)]. subst x. rewrite (proj2 (byte_eqb_eq c c) eq_refl) in E. discriminate.
      * destruct ps; cbn [joinc app] in *; rewrite ?C; congruence.
Qed.
Lemma split_free c s : free c s -> split_on c s = [s].
Proof.
  induction s as [|x s IH]; intros F; [reflexivity|]. cbn [split_on]. destruct (Byte.eqb x c) eqn:E.
  - apply byte_eqb_eq in E. subst. exfalso. apply F. left. reflexivity.
  - rewrite IH; [reflexivity|]. intros H. apply F. right. exact H.
Qed.
Lemma split_app c x s : free c x -> split_on c (x ++ c :: s) = x :: split_on c s.
Proof.
  induction x as [|y x IH]; intros F; cbn [app split_on].
  - rewrite (proj2 (byte_eqb_eq c c) eq_refl). reflexivity.
  - destruct (Byte.eqb y c) eqn:E; [apply byte_eqb_eq in E; subst; exfalso; apply F; left; reflexivity|].
    rewrite IH; [reflexivity|]. intros H. apply F. right. exact H.
Qed.
Lemma split_iff c s l : split_on c s = l <-> l <> [] /\ Forall (free c) l /\ s = joinc c l.
Proof.
  split.
  - intros <-. destruct (split_join c s) as (A & B & C). auto.
  - intros (A & B & ->). induction l as [|x l IH]; [congruence|]. inversion B as [|? ? B1 B2]; subst.
    destruct l as [|y l]; [apply split_free; exact B1|]. change (joinc c (x :: y :: l)) with (x ++ c :: joinc c (y :: l)).
    rewrite split_app by exact B1. f_equal. apply IH; [discriminate|exact B2].
Qed.
Lemma split_one c s x : split_on c s = [x] <-> free c s /\ x = s.
Proof.
  rewrite split_iff. split.
  - intros (_ & B & ->). inversion B; subst. auto.
  - intros [F ->]. split; [discriminate|]. auto.
Qed.
Lemma split_two c s x y : split_on c s = [x; y] <-> free c x /\ free c y /\ s = x ++ c :: y.
Proof.
  rewrite split_iff. split.
  - intros (_ & B & ->). inversion B as [|? ? B1 B2]; subst. inversion B2; subst. auto.
  - intros (A & B & ->). split; [discriminate|]. auto.
Qed.

Lemma starts_iff p s : starts_with p s = true <-> exists r, s = p ++ r.
Proof.
  revert s. induction p as [|x p IH]; intros s; cbn [starts_with app].
  - split; eauto.
  - destruct s as [|y s]; [split; [discriminate|intros [r H]; discriminate H]|].
    rewrite andb_true_iff, byte_eqb_eq, IH. split.
    + intros [-> [r ->]]. eauto.
    + intros [r H]. injection H as -> ->. eauto.
Qed.

(** ** Numbers *)

Definition dig (b : byte) : bool := (48 <=? b2n b) && (b2n b <=? 57).
Definition val (acc : N) (s : bytes) : N := fold_left (fun a b => a * 10 + (b2n b - 48)) s acc.
Lemma val_mono s : forall acc, acc <= val acc s.
Proof. unfold val. induction s as [|b s IH]; intros acc; cbn [fold_left]; [lia|]. specialize (IH (acc * 10 + (b2n b - 48))). lia. Qed.
Lemma digits_iff max s : forall acc n, acc <= max ->
  (digits max acc s = Some n <-> forallb dig s = true /\ n = val acc s /\ n <= max).
Proof.
  induction s as [|b s IH]; intros acc n A; cbn [digits forallb].
  - unfold val. cbn [fold_left]. split; [intros H; injection H as <-; auto|intros (_ & -> & _); reflexivity].
  - fold (dig b). unfold val. cbn [fold_left]. fold (val (acc * 10 + (b2n b - 48)) s).
    destruct (dig b); cbn [andb]; [|split; [discriminate|intros [H _]; discriminate]].
    pose proof (val_mono s (acc * 10 + (b2n b - 48))) as M.
    destruct (N.leb_spec (acc * 10 + (b2n b - 48)) max) as [L|L]; [apply IH; exact L|].
    split; [discriminate|]. intros (_ & -> & H). lia.
Qed.
Lemma dig_ok b d : d < 10 -> b2n b = 48 + d -> dig b = true.
Proof. intros L E. unfold dig. rewrite E. apply andb_true_iff. split; apply N.leb_le; lia. Qed.
Lemma decimal_iff s n : decimal s n <-> s <> [] /\ forallb dig s = true /\ n = val 0 s.
Proof.
  split.
  - induction 1 as [b d D E|s n b d D (A & B & C) L E]; unfold val in *; cbn [fold_left forallb].
    + rewrite (dig_ok b d D E), E. split; [discriminate|]. split; [reflexivity|lia].
    + split; [destruct s; discriminate|]. split.
      * rewrite forallb_app, B. cbn [forallb]. rewrite (dig_ok b d L E). reflexivity.
      * rewrite fold_left_app. cbn [fold_left]. rewrite <- C, E. lia.
  - intros (A & B & ->). revert A B. induction s as [|b s IH] using rev_ind; [congruence|]. intros _ B.
    rewrite forallb_app in B. apply andb_true_iff in B as [B1 B2]. cbn [forallb] in B2. rewrite andb_true_r in B2.
    unfold dig in B2. apply andb_true_iff in B2 as [B2 B3]. apply N.leb_le in B2, B3.
    destruct s as [|c s].
    + cbn. replace (b2n b - 48) with (b2n b - 48) by lia. constructor; lia.
    + unfold val. rewrite fold_left_app. cbn [fold_left]. rewrite N.mul_comm. fold (val 0 (c :: s)).
      constructor; [apply IH; [discriminate|exact B1]|lia|lia].
Qed.
Lemma parse_uint_iff max s n : parse_uint max s = Some n <-> number max s n.
Proof.
  assert (Z : 0 <= max) by lia.
  unfold number, parse_uint. destruct s as [|x s].
  - split; [discriminate|]. intros (_ & [H|(s' & E & _)]); [apply decimal_iff in H as [H _]; congruence|discriminate E].
  - destruct (N.eqb_spec (b2n x) 43) as [E|E].
    + assert (X : x = "+"%byte) by (clear - E; destruct x; vm_compute in E; try discriminate E; reflexivity). subst x. split.
      * destruct s as [|y s]; [discriminate|]. intros H. apply digits_iff in H as (A & B & C); [|exact Z]. split; [exact C|]. right.
        exists (y :: s). split; [reflexivity|]. apply decimal_iff. split; [discriminate|]. auto.
      * intros (L & [H|(s' & H & D)]).
        -- apply decimal_iff in H as (_ & H & _). cbn in H. discriminate H.
        -- injection H as <-. apply decimal_iff in D as (A & B & C). destruct s as [|y s]; [congruence|].
           apply digits_iff; auto.
    + split.
      * intros H. apply digits_iff in H as (A & B & C); [|exact Z]. split; [exact C|]. left. apply decimal_iff. split; [discriminate|]. auto.
      * intros (L & [H|(s' & H & D)]).
        -- apply decimal_iff in H as (_ & A & B). apply digits_iff; auto.
        -- injection H as -> _. exfalso. apply E. reflexivity.
Qed.
Lemma number_free max s n c : number max s n -> dig c = false -> c <> "+"%byte -> free c s.
Proof.
  intros (_ & [D|(s' & -> & D)]) F P I; apply decimal_iff in D as (_ & D & _); rewrite forallb_forall in D.
  - specialize (D c I). congruence.
  - apply in_app_or in I as [I|I]; [change (In c ["+"%byte]) in I; destruct I as [I|[]]; congruence|]. specialize (D c I). congruence.
Qed.
Lemma number_fun max s n n' : number max s n -> number max s n' -> n = n'.
Proof. rewrite <- !parse_uint_iff. congruence. Qed.

(** ** Endpoints *)
Lemma parse_endpoint_iff sc s pr h p : parse_endpoint sc s = COk (pr, h, p) <-> ep_text pr s h p.
Proof.
  unfold parse_endpoint, ep_text. split.
  - destruct (split_on x40 s) as [|a [|hp [|z t]]] eqn:S1; try discriminate.
    apply split_two in S1 as (F1 & F2 & ->).
    destruct (split_on x3a hp) as [|host [|port [|z t]]] eqn:S2; try discriminate.
    apply split_two in S2 as (F3 & F4 & ->).
    destruct (parse_uint u16_max port) as [n|] eqn:PU; [|discriminate]. apply parse_uint_iff in PU.
    destruct (beqb a (bstr "tcp")) eqn:E1; [|destruct (beqb a (bstr "tls")) eqn:E2; [|discriminate]]; intros H;
      assert (pr = PTcp \/ pr = PTls) by (destruct pr; auto); injection H as <- <- <-;
      apply beqb_eq in E1 || apply beqb_eq in E2; subst a; exists port; (split; [reflexivity|]); (split; [|split; assumption]);
      intros I; apply F2; apply in_or_app; left; exact I.
  - intros (t & -> & F1 & F2 & NU).
    assert (T1 : free x40 t) by (apply (number_free _ _ _ _ NU); [reflexivity|discriminate]).
    assert (T2 : free x3a t) by (apply (number_free _ _ _ _ NU); [reflexivity|discriminate]).
    assert (S1 : split_on x40 ((match pr with PTcp => bstr "tcp" | PTls => bstr "tls" end) ++ bstr "@" ++ h ++ bstr ":" ++ t) =
      [match pr with PTcp => bstr "tcp" | PTls => bstr "tls" end; h ++ bstr ":" ++ t]).
    { apply split_two. split; [destruct pr; intros I; cbn in I; repeat destruct I as [I|I]; try discriminate I; contradiction|]. split; [|reflexivity].
      intros I. apply in_app_or in I as [I|I]; [exact (F1 I)|]. apply in_app_or in I as [I|I]; [|exact (T1 I)].
      cbn in I. destruct I as [I|[]]. discriminate I. }
    rewrite S1. rewrite (proj2 (split_two x3a (h ++ bstr ":" ++ t) h t)) by auto.
    rewrite (proj2 (parse_uint_iff u16_max t p) NU). destruct pr; reflexivity.
Qed.
Lemma parse_endpoint_fail sc s : (forall pr h p, ~ ep_text pr s h p) -> parse_endpoint sc s = CErr (Some sc) EEpSyntax.
Proof.
  intros H. destruct (parse_endpoint sc s) as [[[pr h] p]|? ?| |] eqn:E.
  - apply parse_endpoint_iff in E. destruct (H _ _ _ E).
  - unfold parse_endpoint in E. destruct (split_on x40 s) as [|a [|hp [|z t]]]; try congruence.
    destruct (split_on x3a hp) as [|host [|port [|z t]]]; try congruence. destruct (parse_uint u16_max port); try congruence.
    destruct (beqb a (bstr "tcp")); [discriminate|]. destruct (beqb a (bstr "tls")); [discriminate|]. congruence.
  - unfold parse_endpoint in E. destruct (split_on x40 s) as [|a [|hp [|z t]]]; try congruence.
    destruct (split_on x3a hp) as [|host [|port [|z t]]]; try congruence. destruct (parse_uint u16_max port); try congruence.
    destruct (beqb a (bstr "tcp")); [discriminate|]. destruct (beqb a (bstr "tls")); discriminate.
  - unfold parse_endpoint in E. destruct (split_on x40 s) as [|a [|hp [|z t]]]; try congruence.
    destruct (split_on x3a hp) as [|host [|port [|z t]]]; try congruence. destruct (parse_uint u16_max port); try congruence.
    destruct (beqb a (bstr "tcp")); [discriminate|]. destruct (beqb a (bstr "tls")); discriminate.
Qed.

(** ** Raw arguments *)

Definition opt_eqb (a b : opt) : bool :=
  match a, b with
  | OPlugin, OPlugin | ORoot, ORoot | OCert, OCert | OKey, OKey | OPass, OPass | OEndpoint, OEndpoint | OMode, OMode | OWindow, OWindow => true
  | _, _ => false
  end.
Lemma opt_dec : forall a b : opt, {a = b} + {a <> b}. Proof. decide equality. Defined.
Definition name (cs : source) (o : opt) : bytes :=
  match o with
  | OPlugin => n_driver cs | ORoot => n_root cs | OCert => n_cert cs | OKey => n_key cs
  | OPass => n_pkp cs | OEndpoint => n_ep cs | OMode => n_mode cs | OWindow => n_window cs
  end.
Definition names_ok (cs : source) : Prop := forall a b, beqb (name cs a) (name cs b) = opt_eqb a b.
Lemma cli_names_ok : names_ok src_cli. Proof. intros [] []; vm_compute; reflexivity. Qed.
Lemma env_names_ok : names_ok src_env. Proof. intros [] []; vm_compute; reflexivity. Qed.
Lemma cli_name_name o : name src_cli o = cli_name o. Proof. destruct o; reflexivity. Qed.
Lemma env_name_name o : name src_env o = env_name o. Proof. destruct o; reflexivity. Qed.

Lemma rget_rdel k k' m : rget k (rdel k' m) = if beqb k k' then None else rget k m.
Proof.
  unfold rget, rdel. destruct (beqb k k') eqn:E.
  - apply beqb_eq in E. subst. apply aget_del_same.
  - apply beqb_neq in E. apply (aget_del_other _ beqb_eq). exact E.
Qed.
Lemma rget_nil m : m = [] <-> forall k, rget k m = None.
Proof.
  split; [intros ->; reflexivity|]. destruct m as [|[k v] m]; [reflexivity|]. intros H. specialize (H k). unfold rget in H. cbn [aget] in H.
  rewrite beqb_refl in H. discriminate.
Qed.

(** values per option *)
Definition vals_of (cs : source) (m : rawargs) (o : opt) : list bytes := match rget (name cs o) m with Some l => l | None => [] end.
Definition filled (m : rawargs) : Prop := forall k, rget k m <> Some [].
Definition known (cs : source) (m : rawargs) : Prop := forall k l, rget k m = Some l -> exists o, k = name cs o.
Lemma vals_none cs m o : filled m -> (vals_of cs m o = [] <-> rget (name cs o) m = None).
Proof.
  intros F. unfold vals_of. destruct (rget (name cs o) m) as [l|] eqn:E; [|tauto]. split; [|discriminate]. intros ->. destruct (F _ E).
Qed.
Lemma vals_some cs m o x l : vals_of cs m o = x :: l <-> rget (name cs o) m = Some (x :: l).
Proof. unfold vals_of. destruct (rget (name cs o) m) as [y|]; split; intros H; congruence. Qed.

(** ** Options, given the arguments *)
Section Opts.
Variable files : bytes -> option bytes.
Variable cs : source.
Hypothesis NK : names_ok cs.

Definition dels (os : list opt) (m : rawargs) : rawargs := fold_left (fun m o => rdel (name cs o) m) os m.
Lemma rget_dels k os : forall m, rget k (dels os m) = if existsb (fun o => beqb k (name cs o)) os then None else rget k m.
Proof.
  induction os as [|o os IH]; intros m; [reflexivity|]. cbn [existsb]. unfold dels. cbn [fold_left]. fold (dels os (rdel (name cs o) m)).
  rewrite IH, rget_rdel. destruct (beqb k (name cs o)); cbn [orb]; [destruct (existsb _ os); reflexivity|reflexivity].
Qed.
Lemma rget_dels_name o os m : rget (name cs o) (dels os m) = if existsb (opt_eqb o) os then None else rget (name cs o) m.
Proof.
  rewrite rget_dels. assert (E : existsb (fun o' => beqb (name cs o) (name cs o')) os = existsb (opt_eqb o) os).
  { induction os as [|x os IH]; [reflexivity|]. cbn [existsb]. rewrite (NK o x), IH. reflexivity. }
  rewrite E. reflexivity.
Qed.
Lemma dels_nil os m : dels os m = [] <-> (forall k l, rget k m = Some l -> exists o, In o os /\ k = name cs o).
Proof.
  rewrite rget_nil. split; intros H.
  - intros k l G. specialize (H k). rewrite rget_dels in H. destruct (existsb _ os) eqn:E; [|congruence].
    apply existsb_exists in E as (o & I & E). apply beqb_eq in E. eauto.
  - intros k. rewrite rget_dels. destruct (existsb _ os) eqn:E; [reflexivity|]. destruct (rget k m) as [l|] eqn:G; [|reflexivity].
    destruct (H k l G) as (o & I & ->). assert (X : existsb (fun o' => beqb (name cs o) (name cs o')) os = true)
      by (apply existsb_exists; exists o; split; [exact I|apply beqb_refl]). congruence.
Qed.

Lemma argck_ok v k : argck_dup cs v k = COk tt <-> exists x, v = [x].
Proof. destruct v as [|x [|y v]]; cbn; split; intros H; try discriminate H; try (destruct H as [z H]; discriminate H); eauto. Qed.

(** the TLS options *)
Lemma decode_tls_iff os m h p args s : filled m -> existsb (opt_eqb OCert) os = false -> existsb (opt_eqb OKey) os = false -> existsb (opt_eqb OPass) os = false ->
  (arg_decode_tls files cs (dels os m) h p = COk (args, s) <->
   args = dels (os ++ [OCert; OKey; OPass]) m /\ tls_of files (vals_of cs m) (mk_tcp h p) s).
Proof.
  intros FI E1 E2 E3. unfold arg_decode_tls.
  change (n_cert cs) with (name cs OCert). change (n_key cs) with (name cs OKey). change (n_pkp cs) with (name cs OPass).
  assert (D : forall o x, rdel (name cs o) (dels x m) = dels (x ++ [o]) m) by (intros o x; unfold dels; rewrite fold_left_app; reflexivity).
  rewrite !D, <- !app_assoc. cbn [app]. rewrite !rget_dels_name, !existsb_app, E1, E2, E3. cbn [existsb opt_eqb orb].
  unfold tls_of, vals_of. destruct (rget (name cs OCert) m) as [c|] eqn:G1;
    [|split; [discriminate|intros (_ & _ & (x & X & _) & _); discriminate X]].
  destruct (rget (name cs OKey) m) as [k|] eqn:G2; [|split; [discriminate|intros (_ & _ & _ & (x & X & _) & _); discriminate X]].
  destruct (rget (name cs OPass) m) as [q|] eqn:G3; [|split; [discriminate|intros (_ & _ & _ & _ & (x & X & _)); discriminate X]].
  destruct c as [|c [|c' cc]]; cbn [argck_dup cbind];
    try (split; [discriminate|intros (_ & _ & (x & X & _) & _); discriminate X]).
  destruct k as [|k [|k' kk]]; cbn [argck_dup cbind];
    try (split; [discriminate|intros (_ & _ & _ & (x & X & _) & _); discriminate X]).
  destruct q as [|q [|q' qq]]; cbn [argck_dup cbind];
    try (split; [discriminate|intros (_ & _ & _ & _ & (x & X & _)); discriminate X]).
  cbn [first cbind]. unfold decode_tls_ep, read_file. split.
  - destruct (files k) as [kt|] eqn:F1; [|discriminate]. cbn [cbind]. destruct (files c) as [ct|] eqn:F2; [|discriminate]. cbn [cbind].
    destruct (files q) as [qt|] eqn:F3; [|discriminate]. cbn [cbind]. intros H. injection H as <- <-. cbn [s_tcp s_cert s_key s_pass]. eauto 12.
  - intros (-> & T & (x & X & FX) & (y & Y & FY) & (z & Z & FZ)). injection X as <-. injection Y as <-. injection Z as <-.
    rewrite FX, FY, FZ. cbn [cbind]. destruct s as [st sc sk sp]. cbn [s_tcp s_cert s_key s_pass] in *. subst st. reflexivity.
Qed.

(** the endpoints: what the loop decodes and what is left *)
Definition eps_dec (e : endpoint) : option tls_ep * option tcp_ep :=
  match e with EpInsecure t => (None, Some t) | EpSecure s => (Some s, None) | EpMulti t s => (Some s, Some t) end.
Inductive eps_got (m : rawargs) : list bytes -> option tls_ep * option tcp_ep -> Prop :=
| eg_tcp e h p : ep_text PTcp e h p -> eps_got m [e] (None, Some (mk_tcp h p))
| eg_tls e h p s : ep_text PTls e h p -> tls_of files (vals_of cs m) (mk_tcp h p) s -> eps_got m [e] (Some s, None)
| eg_both e1 h1 p1 e2 h2 p2 s : ep_text PTcp e1 h1 p1 -> ep_text PTls e2 h2 p2 -> tls_of files (vals_of cs m) (mk_tcp h2 p2) s ->
    eps_got m [e1; e2] (Some s, Some (mk_tcp h1 p1))
| eg_both' e1 h1 p1 e2 h2 p2 s : ep_text PTcp e1 h1 p1 -> ep_text PTls e2 h2 p2 -> tls_of files (vals_of cs m) (mk_tcp h2 p2) s ->
    eps_got m [e2; e1] (Some s, Some (mk_tcp h1 p1)).

Lemma loop_iff os m eps args r : filled m -> existsb (opt_eqb OCert) os = false -> existsb (opt_eqb OKey) os = false -> existsb (opt_eqb OPass) os = false ->
  eps <> [] -> (length eps <= 2)%nat ->
  (endpoints_loop files cs eps (dels os m) None None = COk (args, r) <->
   eps_got m eps r /\ args = dels (os ++ match fst r with Some _ => [OCert; OKey; OPass] | None => [] end) m).
Proof.
  intros FI E1 E2 E3 NE LE.
  assert (DT : forall h p a s, arg_decode_tls files cs (dels os m) h p = COk (a, s) -> a = dels (os ++ [OCert; OKey; OPass]) m /\ tls_of files (vals_of cs m) (mk_tcp h p) s)
    by (intros h p a s H; apply decode_tls_iff; auto).
  assert (TD : forall h p s, tls_of files (vals_of cs m) (mk_tcp h p) s -> arg_decode_tls files cs (dels os m) h p = COk (dels (os ++ [OCert; OKey; OPass]) m, s))
    by (intros h p s H; apply decode_tls_iff; auto).
  split.
  - destruct eps as [|e [|e' [|e'' eps]]]; [congruence| | |cbn in LE; lia]; cbn [endpoints_loop].
    + destruct (parse_endpoint (n_src cs) e) as [[[pr h] p]| | |] eqn:P; cbn [cbind]; try discriminate. apply parse_endpoint_iff in P. destruct pr.
      * intros H. injection H as <- <-. cbn [fst]. rewrite app_nil_r. split; [econstructor; eauto|reflexivity].
      * destruct (arg_decode_tls files cs (dels os m) h p) as [[a s]| | |] eqn:T; cbn [cbind]; try discriminate. apply DT in T as [-> T].
        intros H. injection H as <- <-. cbn [fst]. split; [econstructor; eauto|reflexivity].
    + destruct (parse_endpoint (n_src cs) e) as [[[pr h] p]| | |] eqn:P; cbn [cbind]; try discriminate. apply parse_endpoint_iff in P. destruct pr.
      * destruct (parse_endpoint (n_src cs) e') as [[[pr' h'] p']| | |] eqn:P'; cbn [cbind]; try discriminate. apply parse_endpoint_iff in P'.
        destruct pr'; [discriminate|].
        destruct (arg_decode_tls files cs (dels os m) h' p') as [[a s]| | |] eqn:T; cbn [cbind]; try discriminate. apply DT in T as [-> T].
        intros H. injection H as <- <-. cbn [fst]. split; [eapply eg_both; eauto|reflexivity].
      * destruct (arg_decode_tls files cs (dels os m) h p) as [[a s]| | |] eqn:T; cbn [cbind]; try discriminate. apply DT in T as [-> T].
        destruct (parse_endpoint (n_src cs) e') as [[[pr' h'] p']| | |] eqn:P'; cbn [cbind]; try discriminate. apply parse_endpoint_iff in P'.
        destruct pr'; [|discriminate]. intros H. injection H as <- <-. cbn [fst]. split; [eapply eg_both'; eauto|reflexivity].
  - intros [G ->]. destruct G as [e h p P|e h p s P T|e1 h1 p1 e2 h2 p2 s P1 P2 T|e1 h1 p1 e2 h2 p2 s P1 P2 T]; cbn [endpoints_loop fst].
    + rewrite (proj2 (parse_endpoint_iff _ _ _ _ _) P), app_nil_r. reflexivity.
    + rewrite (proj2 (parse_endpoint_iff _ _ _ _ _) P). cbn [cbind]. rewrite (TD _ _ _ T). reflexivity.
    + rewrite (proj2 (parse_endpoint_iff _ _ _ _ _) P1). cbn [cbind]. rewrite (proj2 (parse_endpoint_iff _ _ _ _ _) P2). cbn [cbind].
      rewrite (TD _ _ _ T). reflexivity.
    + rewrite (proj2 (parse_endpoint_iff _ _ _ _ _) P2). cbn [cbind]. rewrite (TD _ _ _ T). cbn [cbind].
      rewrite (proj2 (parse_endpoint_iff _ _ _ _ _) P1). reflexivity.
Qed.

Lemma rdel_absent k m : rget k m = None -> rdel k m = m.
Proof.
  unfold rget, rdel, adel. induction m as [|[k' v] m IH]; [reflexivity|]. cbn [aget filter fst]. destruct (beqb k k'); [discriminate|].
  cbn [negb]. intros H. f_equal. exact (IH H).
Qed.
Lemma dels_app os x m : dels (os ++ x) m = dels x (dels os m).
Proof. unfold dels. apply fold_left_app. Qed.

Lemma auth_iff m cfg args cfg' : filled m ->
  (arg_decode_auth cs m cfg = COk (args, cfg') <->
   args = dels [OPlugin; ORoot] m /\ (vals_of cs m OPlugin = [] \/ vals_of cs m OPlugin = [bstr "pwd"]) /\
   exists p, vals_of cs m ORoot = [p] /\ cfg' = mk_decoded (k_system cfg) (k_endpoints cfg) (Some (Pwd, p))).
Proof.
  intros FI. unfold arg_decode_auth. change (n_driver cs) with (name cs OPlugin). change (n_root cs) with (name cs ORoot).
  change (rdel (name cs OPlugin) m) with (dels [OPlugin] m). rewrite rget_dels_name. cbn [existsb opt_eqb orb].
  change (rdel (name cs ORoot) (dels [OPlugin] m)) with (dels [OPlugin; ORoot] m). unfold vals_of.
  destruct (rget (name cs ORoot) m) as [root|] eqn:G1; [|split; [discriminate|intros (_ & _ & p & H & _); discriminate H]].
  destruct (rget (name cs OPlugin) m) as [d|] eqn:G2.
  - destruct d as [|d [|d' dd]]; [destruct (FI _ G2)| |split; [discriminate|intros (_ & [H|H] & _); discriminate H]].
    cbn [argck_dup cbind first].
    destruct root as [|r [|r' rr]]; cbn [argck_dup cbind first]; try (split; [discriminate|intros (_ & _ & p & H & _); discriminate H]).
    destruct (beqb d (bstr "pwd")) eqn:E; cbn [cbind].
    + apply beqb_eq in E. subst d. split; [intros H; injection H as <- <-; eauto 6|]. intros (-> & _ & p & H & ->). injection H as <-. reflexivity.
    + apply beqb_neq in E. split; [discriminate|]. intros (_ & [H|H] & _); [discriminate H|]. injection H as H. congruence.
  - cbn [cbind]. destruct root as [|r [|r' rr]]; cbn [argck_dup cbind first]; try (split; [discriminate|intros (_ & _ & p & H & _); discriminate H]).
    split; [intros H; injection H as <- <-; eauto 6|]. intros (-> & _ & p & H & ->). injection H as <-. reflexivity.
Qed.

Definition mode_text (md : cmode) : bytes := match md with Dev => bstr "dev" | Prod => bstr "prod" end.
Definition set_mode (md : cmode) (cfg : decoded) : decoded :=
  mk_decoded (Some (match k_system cfg with Some (_, w) => (Some md, w) | None => (Some md, None) end)) (k_endpoints cfg) (k_auth cfg).
Lemma mode_iff os m cfg args cfg' : filled m -> existsb (opt_eqb OMode) os = false ->
  (simple cs (n_mode cs) arg_decode_mode (dels os m) cfg = COk (args, cfg') <->
   args = dels (os ++ [OMode]) m /\
   ((vals_of cs m OMode = [] /\ cfg' = cfg) \/ exists md, vals_of cs m OMode = [mode_text md] /\ cfg' = set_mode md cfg)).
Proof.
  intros FI E. unfold simple. change (n_mode cs) with (name cs OMode). rewrite dels_app.
  pose proof (rget_dels_name OMode os m) as G0. rewrite E in G0. unfold vals_of. rewrite <- G0. cbn [dels fold_left].
  destruct (rget (name cs OMode) (dels os m)) as [v|] eqn:G.
  - unfold arg_decode_mode. change (n_mode cs) with (name cs OMode). destruct v as [|x [|y v]].
    + destruct (FI (name cs OMode)). congruence.
    + cbn [argck_dup cbind first]. destruct (beqb x (bstr "dev")) eqn:E1; cbn [cbind].
      * apply beqb_eq in E1. subst x. split.
        -- intros H. injection H as <- <-. split; [reflexivity|]. right. exists Dev. auto.
        -- intros (-> & [[H _]|([|] & H & ->)]); [discriminate H|reflexivity|discriminate H].
      * apply beqb_neq in E1. destruct (beqb x (bstr "prod")) eqn:E2; cbn [cbind].
        -- apply beqb_eq in E2. subst x. split.
           ++ intros H. injection H as <- <-. split; [reflexivity|]. right. exists Prod. auto.
           ++ intros (-> & [[H _]|([|] & H & ->)]); [discriminate H|discriminate H|reflexivity].
        -- apply beqb_neq in E2. split; [discriminate|]. intros (_ & [[H _]|([|] & H & _)]); [discriminate H| |]; injection H as H; exfalso; auto.
    + cbn [argck_dup cbind]. split; [discriminate|]. intros (_ & [[H _]|(md & H & _)]); discriminate H.
  - split.
    + intros H. injection H as <- <-. split; [symmetry; apply rdel_absent; exact G|]. left. auto.
    + intros (-> & [[_ ->]|(md & H & _)]); [|discriminate H]. rewrite rdel_absent by exact G. reflexivity.
Qed.

Definition set_window (n : N) (cfg : decoded) : decoded :=
  mk_decoded (Some (match k_system cfg with Some (md, _) => (md, Some n) | None => (None, Some n) end)) (k_endpoints cfg) (k_auth cfg).
Lemma window_iff os m cfg args cfg' : filled m -> existsb (opt_eqb OWindow) os = false ->
  (simple cs (n_window cs) arg_decode_window (dels os m) cfg = COk (args, cfg') <->
   args = dels (os ++ [OWindow]) m /\
   ((vals_of cs m OWindow = [] /\ cfg' = cfg) \/ exists t n, vals_of cs m OWindow = [t] /\ number u64_max t n /\ cfg' = set_window n cfg)).
Proof.
  intros FI E. unfold simple. change (n_window cs) with (name cs OWindow). rewrite dels_app.
  pose proof (rget_dels_name OWindow os m) as G0. rewrite E in G0. unfold vals_of. rewrite <- G0. cbn [dels fold_left].
  destruct (rget (name cs OWindow) (dels os m)) as [v|] eqn:G.
  - unfold arg_decode_window. change (n_window cs) with (name cs OWindow). destruct v as [|x [|y v]].
    + destruct (FI (name cs OWindow)). congruence.
    + cbn [argck_dup cbind first]. destruct (parse_uint u64_max x) as [n|] eqn:P; cbn [cbind].
      * apply parse_uint_iff in P. split.
        -- intros H. injection H as <- <-. split; [reflexivity|]. right. exists x, n. auto.
        -- intros (-> & [[H _]|(t & n' & H & NU & ->)]); [discriminate H|]. injection H as <-.
           rewrite (number_fun _ _ _ _ NU P). reflexivity.
      * split; [discriminate|]. intros (_ & [[H _]|(t & n' & H & NU & _)]); [discriminate H|]. injection H as <-.
        apply parse_uint_iff in NU. congruence.
    + cbn [argck_dup cbind]. split; [discriminate|]. intros (_ & [[H _]|(t & n & H & _)]); discriminate H.
  - split.
    + intros H. injection H as <- <-. split; [symmetry; apply rdel_absent; exact G|]. left. auto.
    + intros (-> & [[_ ->]|(t & n & H & _)]); [|discriminate H]. rewrite rdel_absent by exact G. reflexivity.
Qed.

Lemma eps_got_some m l r : eps_got m l r -> l <> [] /\ (length l <= 2)%nat /\ r <> (None, None).
Proof. destruct 1; (split; [discriminate|]); (split; [cbn; lia|discriminate]). Qed.

Lemma endpoints_iff os m cfg args cfg' : filled m ->
  existsb (opt_eqb OEndpoint) os = false -> existsb (opt_eqb OCert) os = false -> existsb (opt_eqb OKey) os = false -> existsb (opt_eqb OPass) os = false ->
  (arg_decode_endpoints files cs (dels os m) cfg = COk (args, cfg') <->
   (vals_of cs m OEndpoint = [] /\ args = dels (os ++ [OEndpoint]) m /\ cfg' = cfg) \/
   (exists r, eps_got m (vals_of cs m OEndpoint) r /\
      args = dels ((os ++ [OEndpoint]) ++ match fst r with Some _ => [OCert; OKey; OPass] | None => [] end) m /\
      cfg' = mk_decoded (k_system cfg) (Some r) (k_auth cfg))).
Proof.
  intros FI E E1 E2 E3. unfold arg_decode_endpoints. change (n_ep cs) with (name cs OEndpoint).
  pose proof (rget_dels_name OEndpoint os m) as G0. rewrite E in G0. unfold vals_of. rewrite G0.
  destruct (rget (name cs OEndpoint) m) as [eps|] eqn:G.
  - assert (NE : eps <> []) by (intros ->; destruct (FI _ G)).
    replace (rdel (name cs OEndpoint) (dels os m)) with (dels (os ++ [OEndpoint]) m) by (rewrite dels_app; reflexivity).
    destruct (le_lt_dec (length eps) 2) as [L|L].
    + replace (match eps with _ :: _ :: _ :: _ => CErr (Some (n_src cs)) (ETooMany (name cs OEndpoint))
        | _ => cbind (endpoints_loop files cs eps (dels (os ++ [OEndpoint]) m) None None) (fun '(args, (secure, insecure)) =>
          match secure, insecure with None, None => COk (args, cfg) | _, _ => COk (args, mk_decoded (k_system cfg) (Some (secure, insecure)) (k_auth cfg)) end) end)
        with (cbind (endpoints_loop files cs eps (dels (os ++ [OEndpoint]) m) None None) (fun '(args, (secure, insecure)) =>
          match secure, insecure with None, None => COk (args, cfg) | _, _ => COk (args, mk_decoded (k_system cfg) (Some (secure, insecure)) (k_auth cfg)) end))
        by (destruct eps as [|a [|b [|c eps]]]; try reflexivity; cbn in L; lia).
      assert (LI : forall a r, endpoints_loop files cs eps (dels (os ++ [OEndpoint]) m) None None = COk (a, r) <->
        eps_got m eps r /\ a = dels ((os ++ [OEndpoint]) ++ match fst r with Some _ => [OCert; OKey; OPass] | None => [] end) m).
      { intros a r. apply loop_iff; auto; rewrite existsb_app; rewrite ?E1, ?E2, ?E3; reflexivity. }
      split.
      * destruct (endpoints_loop files cs eps (dels (os ++ [OEndpoint]) m) None None) as [[a [se ins]]| | |] eqn:EL; cbn [cbind]; try discriminate.
        destruct (proj1 (LI a (se, ins)) eq_refl) as [EG EA]. destruct (eps_got_some _ _ _ EG) as (_ & _ & NN). intros H. right. exists (se, ins).
        split; [exact EG|]. destruct se, ins; try congruence; injection H as <- <-; auto.
      * intros [(H & _)|(r & EG & -> & ->)]; [congruence|]. destruct (eps_got_some _ _ _ EG) as (_ & _ & NN).
        rewrite (proj2 (LI _ r) (conj EG eq_refl)). cbn [cbind]. destruct r as [[s|] [t|]]; try reflexivity. congruence.
    + destruct eps as [|a [|b [|c eps]]]; cbn in L; try lia. split; [discriminate|].
      intros [(H & _)|(r & EG & _)]; [discriminate H|]. destruct (eps_got_some _ _ _ EG) as (_ & L' & _). cbn in L'. lia.
  - split.
    + intros H. injection H as <- <-. left. split; [reflexivity|]. split; [|reflexivity]. rewrite dels_app. symmetry. apply rdel_absent. exact G0.
    + intros [(_ & -> & ->)|(r & EG & _)].
      * rewrite dels_app. cbn [dels fold_left]. rewrite rdel_absent; [reflexivity|]. exact G0.
      * destruct (eps_got_some _ _ _ EG) as (X & _). congruence.
Qed.

Ltac inl := cbn [In app]; repeat (first [left; reflexivity|right]).
Ltac nin := cbn [In app]; let H := fresh in intros H; repeat (destruct H as [H|H]; [discriminate H|]); exact H.
Lemma tls_absent m os : filled m -> ~ In OCert os -> ~ In OKey os -> ~ In OPass os -> dels os m = [] -> no_tls_options (vals_of cs m).
Proof.
  intros FI A B C D. rewrite dels_nil in D.
  assert (X : forall o, ~ In o os -> vals_of cs m o = []).
  { intros o NI. apply vals_none; [exact FI|]. destruct (rget (name cs o) m) as [l|] eqn:G; [|reflexivity]. exfalso.
    destruct (D _ _ G) as (o' & I & E). assert (EB : beqb (name cs o) (name cs o') = true) by (apply beqb_eq; exact E).
    rewrite (NK o o') in EB. destruct o, o'; try discriminate EB; auto. }
  split; [apply X; exact A|]. split; apply X; assumption.
Qed.
Lemma known_dels m os : known cs m -> (forall o, ~ In o os -> rget (name cs o) m = None) -> dels os m = [].
Proof.
  intros K H. apply dels_nil. intros k l G. destruct (K _ _ G) as (o & ->). exists o. split; [|reflexivity].
  destruct (in_dec opt_dec o os) as [I|I]; [exact I|]. rewrite (H o I) in G. discriminate G.
Qed.

(** all options together *)
Theorem apply_iff m c : filled m ->
  (apply_and_validate files cs m = COk (RConfig c) <-> known cs m /\ settled files (vals_of cs m) c).
Proof.
  intros FI. unfold apply_and_validate, apply_changes. split.
  - destruct (arg_decode_auth cs m decoded0) as [[a1 c1]| | |] eqn:A1; cbn [cbind]; try discriminate.
    apply auth_iff in A1 as (-> & PL & p & RT & ->); [|exact FI]. cbn [decoded0 k_system k_endpoints].
    destruct (simple cs (n_mode cs) arg_decode_mode _ _) as [[a2 c2]| | |] eqn:A2; cbn [cbind]; try discriminate.
    apply mode_iff in A2 as (-> & MO); [|exact FI|reflexivity]. cbn [app] in *.
    destruct (simple cs (n_window cs) arg_decode_window _ _) as [[a3 c3]| | |] eqn:A3; cbn [cbind]; try discriminate.
    apply window_iff in A3 as (-> & WI); [|exact FI|reflexivity]. cbn [app] in *.
    destruct (arg_decode_endpoints files cs _ _) as [[a4 c4]| | |] eqn:A4; cbn [cbind]; try discriminate.
    apply endpoints_iff in A4; try exact FI; try reflexivity. cbn [app] in A4.
    destruct a4 as [|x a4]; cbn [cbind]; [|discriminate]. intros V.
    assert (SY : k_auth c4 = Some (Pwd, p) /\
      ((vals_of cs m OMode = [] /\ (forall md w, k_system c4 <> Some (Some md, w))) \/
       (exists md w, vals_of cs m OMode = [mode_text md] /\ k_system c4 = Some (Some md, w))) /\
      ((vals_of cs m OWindow = [] /\ (forall md w, k_system c4 <> Some (md, Some w))) \/
       (exists t n md, vals_of cs m OWindow = [t] /\ number u64_max t n /\ k_system c4 = Some (md, Some n)))).
    { assert (K4 : k_system c4 = k_system c3 /\ k_auth c4 = k_auth c3) by (destruct A4 as [(_ & _ & ->)|(r & _ & _ & ->)]; auto).
      destruct K4 as [-> ->]. destruct MO as [[MV ->]|(md & MV & ->)], WI as [[WV ->]|(t & n & WV & NU & ->)]; cbn [k_auth k_system set_mode set_window];
        (split; [reflexivity|]); (split; [|]).
      all: try (left; split; [assumption|intros; discriminate]).
      all: right; eauto 8. }
    destruct SY as (KA & KM & KW).
    unfold validate in V. rewrite KA in V. cbn [default_config c_root c_mode c_window c_ep c_auth fst snd] in V.
    set (ep := match k_endpoints c4 with None | Some (None, None) => _ | Some (None, Some t) => _ | Some (Some s, Some t) => _ | Some (Some s, None) => _ end) in V.
    set (mode := match k_system c4 with Some (Some m0, _) => m0 | _ => Dev end) in V.
    set (win := match k_system c4 with Some (_, Some w) => w | _ => 300 end) in V.
    destruct (N.eqb_spec win 0) as [Z|NZ]; [discriminate|]. destruct (N.ltb_spec (len p) 16) as [SL|SL]; [discriminate|].
    cbn [cbind] in V. injection V as <-. split.
    + intros k l G. destruct A4 as [(_ & DN & _)|(r & _ & DN & _)]; symmetry in DN; rewrite dels_nil in DN; destruct (DN _ _ G) as (o & _ & ->); eauto.
    + constructor; cbn [c_root c_auth c_mode c_window c_ep].
      * exists p. auto.
      * auto.
      * destruct KM as [[MV NS]|(md & w & MV & KS)].
        -- left. split; [exact MV|]. subst mode. destruct (k_system c4) as [[[md|] w]|]; try reflexivity. destruct (NS md w eq_refl).
        -- right. subst mode. rewrite KS. destruct md; auto.
      * destruct KW as [[WV NS]|(t & n & md & WV & NU & KS)].
        -- left. split; [exact WV|]. subst win. destruct (k_system c4) as [[md [w|]]|]; try reflexivity. destruct (NS md w eq_refl).
        -- right. exists t. subst win. rewrite KS in *. auto.
      * destruct A4 as [(EV & DN & ->)|(r & EG & DN & ->)].
        -- assert (KE : k_endpoints c3 = None).
           { destruct WI as [[_ ->]|(? & ? & _ & _ & ->)], MO as [[_ ->]|(? & _ & ->)]; reflexivity. }
           subst ep. rewrite KE, EV. constructor. symmetry in DN. eapply tls_absent; [exact FI| | | |exact DN]; nin.
        -- symmetry in DN. subst ep. cbn [k_endpoints]. destruct EG; cbn [fst app] in DN.
           ++ constructor; [assumption|]. eapply tls_absent; [exact FI| | | |exact DN]; nin.
           ++ econstructor; eassumption.
           ++ econstructor; eassumption.
           ++ eapply ep_both'; eassumption.
  - intros (K & [(p & RT & SL & RC) [AU PL] MO WI EP]).
    destruct c as [ep mode win au root]. cbn [c_root c_auth c_mode c_window c_ep] in *. subst root au.
    rewrite (proj2 (auth_iff m decoded0 _ _ FI) (conj eq_refl (conj PL (ex_intro _ p (conj RT eq_refl))))). cbn [cbind decoded0 k_system k_endpoints].
    set (d1 := mk_decoded None None (Some (Pwd, p))).
    assert (M2 : exists d2, simple cs (n_mode cs) arg_decode_mode (dels [OPlugin; ORoot] m) d1 = COk (dels [OPlugin; ORoot; OMode] m, d2) /\
      k_endpoints d2 = None /\ k_auth d2 = Some (Pwd, p) /\ match k_system d2 with Some (Some md, None) => md = mode | None => mode = Dev | _ => False end).
    { destruct MO as [[MV MD]|[[MV MD]|[MV MD]]].
      - exists d1. split; [apply mode_iff; [exact FI|reflexivity|]; auto|]. cbn. auto.
      - exists (set_mode Dev d1). split; [apply mode_iff; [exact FI|reflexivity|]; split; [reflexivity|]; right; exists Dev; auto|]. cbn. auto.
      - exists (set_mode Prod d1). split; [apply mode_iff; [exact FI|reflexivity|]; split; [reflexivity|]; right; exists Prod; auto|]. cbn. auto. }
    destruct M2 as (d2 & E2 & KE2 & KA2 & KS2). rewrite E2. cbn [cbind].
    assert (M3 : exists d3, simple cs (n_window cs) arg_decode_window (dels [OPlugin; ORoot; OMode] m) d2 = COk (dels [OPlugin; ORoot; OMode; OWindow] m, d3) /\
      k_endpoints d3 = None /\ k_auth d3 = Some (Pwd, p) /\ match k_system d3 with Some (Some md, _) => md = mode | _ => mode = Dev end /\
      win <> 0 /\ match k_system d3 with Some (_, Some w) => w = win | _ => win = 300 end).
    { destruct WI as [[WV WD]|(t & WV & NU & NZ)].
      - exists d2. split; [apply window_iff; [exact FI|reflexivity|]; auto|]. subst win. destruct (k_system d2) as [[[md|] [w|]]|]; try contradiction; repeat split; auto; discriminate.
      - exists (set_window win d2). split; [apply window_iff; [exact FI|reflexivity|]; split; [reflexivity|]; right; exists t, win; auto|].
        unfold set_window. cbn [k_endpoints k_auth k_system]. split; [exact KE2|]. split; [exact KA2|].
        destruct (k_system d2) as [[[md|] [w|]]|]; try contradiction; auto. }
    destruct M3 as (d3 & E3 & KE3 & KA3 & KM3 & NZ & KW3). rewrite E3. cbn [cbind].
    assert (RN : forall o, vals_of cs m o = [] -> rget (name cs o) m = None) by (intros o; apply vals_none; exact FI).
    assert (M4 : exists d4, arg_decode_endpoints files cs (dels [OPlugin; ORoot; OMode; OWindow] m) d3 = COk ([], d4) /\
      k_system d4 = k_system d3 /\ k_auth d4 = k_auth d3 /\
      ep = match k_endpoints d4 with None | Some (None, None) => EpInsecure (mk_tcp (bstr "127.0.0.1") 2003) | Some (None, Some t) => EpInsecure t
           | Some (Some s, Some t) => EpMulti t s | Some (Some s, None) => EpSecure s end).
    { remember (vals_of cs m OEndpoint) as eps eqn:EE. symmetry in EE. destruct EP as [NT|e h q P NT|e h q s P T|e1 h1 p1 e2 h2 p2 s P1 P2 T|e1 h1 p1 e2 h2 p2 s P1 P2 T].
      - exists d3. split; [|split; [reflexivity|split; [reflexivity|rewrite KE3; reflexivity]]].
        apply endpoints_iff; try exact FI; try reflexivity. left. split; [exact EE|]. split; [|reflexivity]. symmetry. apply known_dels; [exact K|].
        intros o NI. destruct NT as (N1 & N2 & N3). destruct o; try (exfalso; apply NI; inl; fail); apply RN; assumption.
      - exists (mk_decoded (k_system d3) (Some (None, Some (mk_tcp h q))) (k_auth d3)). split; [|auto].
        apply endpoints_iff; try exact FI; try reflexivity. right. exists (None, Some (mk_tcp h q)). split; [rewrite EE; constructor; exact P|]. split; [|reflexivity].
        symmetry. apply known_dels; [exact K|]. intros o NI. destruct NT as (N1 & N2 & N3). destruct o; try (exfalso; apply NI; inl; fail); apply RN; assumption.
      - exists (mk_decoded (k_system d3) (Some (Some s, None)) (k_auth d3)). split; [|auto].
        apply endpoints_iff; try exact FI; try reflexivity. right. exists (Some s, None). split; [rewrite EE; econstructor; eassumption|]. split; [|reflexivity].
        symmetry. apply known_dels; [exact K|]. intros o NI. exfalso. apply NI. destruct o; inl.
      - exists (mk_decoded (k_system d3) (Some (Some s, Some (mk_tcp h1 p1))) (k_auth d3)). split; [|auto].
        apply endpoints_iff; try exact FI; try reflexivity. right. exists (Some s, Some (mk_tcp h1 p1)). split; [rewrite EE; econstructor; eassumption|]. split; [|reflexivity].
        symmetry. apply known_dels; [exact K|]. intros o NI. exfalso. apply NI. destruct o; inl.
      - exists (mk_decoded (k_system d3) (Some (Some s, Some (mk_tcp h1 p1))) (k_auth d3)). split; [|auto].
        apply endpoints_iff; try exact FI; try reflexivity. right. exists (Some s, Some (mk_tcp h1 p1)). split; [rewrite EE; eapply eg_both'; eassumption|]. split; [|reflexivity].
        symmetry. apply known_dels; [exact K|]. intros o NI. exfalso. apply NI. destruct o; inl. }
    destruct M4 as (d4 & E4 & KS4 & KA4 & EPE). rewrite E4. cbn [cbind]. unfold validate. rewrite KA4, KA3, KS4. cbn [default_config c_root c_mode c_window c_ep c_auth fst snd].
    rewrite <- EPE.
    replace (match k_system d3 with Some (Some m0, _) => m0 | _ => Dev end) with mode by (destruct (k_system d3) as [[[md|] w]|]; congruence).
    replace (match k_system d3 with Some (_, Some w) => w | _ => 300 end) with win by (destruct (k_system d3) as [[md [w|]]|]; congruence).
    destruct (N.eqb_spec win 0) as [Z|_]; [congruence|]. destruct (N.ltb_spec (len p) 16) as [L|_]; [lia|]. reflexivity.
Qed.

(** ** Complaints *)
(** the two that name the wrong option (534, 542) *)
Definition misnamed (m : rawargs) (k : ckind) : Prop :=
  (k = ENeedAuth (name cs OPlugin) /\ vals_of cs m ORoot = []) \/
  (k = ETooMany (name cs OPlugin) /\ (2 <= length (vals_of cs m ORoot))%nat /\ (length (vals_of cs m OPlugin) <= 1)%nat).
Definition src_of (k : ckind) : csrc := match k with ENeedTls => SCli | _ => n_src cs end.
Definition blamed (m : rawargs) (s : option csrc) (k : ckind) : Prop :=
  s = Some (src_of k) /\ (fault (name cs) (vals_of cs m) (~ known cs m) k \/ misnamed m k).

Lemma bind_err {A B} (x : cres A) (f : A -> cres B) s k : cbind x f = CErr s k -> x = CErr s k \/ exists a, x = COk a /\ f a = CErr s k.
Proof. destruct x as [a|s0 k0| |]; cbn [cbind]; intros H; [right; exists a; auto|left; congruence|discriminate H|discriminate H]. Qed.
Lemma bind_ok {A B} (x : cres A) (f : A -> cres B) b : cbind x f = COk b -> exists a, x = COk a /\ f a = COk b.
Proof. destruct x as [a|s0 k0| |]; cbn [cbind]; intros H; [exists a; auto|discriminate H..]. Qed.
Lemma dup_err v key s k : argck_dup cs v key = CErr s k -> s = Some (n_src cs) /\ k = ETooMany key /\ length v <> 1%nat.
Proof. destruct v as [|x [|y v]]; cbn; intros H; try discriminate H; injection H as <- <-; split; auto. Qed.
Lemma vals_get m o v : rget (name cs o) m = Some v -> vals_of cs m o = v.
Proof. unfold vals_of. intros ->. reflexivity. Qed.
Lemma too_many m o v : filled m -> o <> OEndpoint -> rget (name cs o) m = Some v -> length v <> 1%nat ->
  exists o', name cs o = name cs o' /\ (2 <= length (vals_of cs m o'))%nat /\ (o' = OEndpoint -> (3 <= length (vals_of cs m o'))%nat).
Proof.
  intros F NE G L. exists o. rewrite (vals_get _ _ _ G). destruct v as [|x [|y v]]; [destruct (F _ G)|destruct (L eq_refl)|]. cbn [length]. repeat split; [lia|congruence].
Qed.
Lemma first_err v (s : option csrc) k : first v = CErr s k -> False. Proof. destruct v; discriminate. Qed.

Lemma auth_err m d s k : filled m -> arg_decode_auth cs m d = CErr s k -> blamed m s k.
Proof.
  intros FI H. unfold arg_decode_auth in H. change (n_driver cs) with (name cs OPlugin) in H. change (n_root cs) with (name cs ORoot) in H.
  rewrite rget_rdel, (NK ORoot OPlugin) in H. cbn [opt_eqb] in H.
  destruct (rget (name cs ORoot) m) as [r|] eqn:GR.
  2:{ injection H as <- <-. split; [reflexivity|]. right. left. split; [reflexivity|]. unfold vals_of. rewrite GR. reflexivity. }
  assert (HD : (exists d0, rget (name cs OPlugin) m = Some d0 /\ length d0 <> 1%nat /\ s = Some (n_src cs) /\ k = ETooMany (name cs OPlugin)) \/
    (length (vals_of cs m OPlugin) <= 1)%nat /\ (cbind (argck_dup cs r (name cs OPlugin)) (fun _ => cbind (match rget (name cs OPlugin) m with None => COk Pwd
      | Some d => cbind (first d) (fun d0 => if beqb d0 (bstr "pwd") then COk Pwd else CErr (Some (n_src cs)) (EInvalid (name cs OPlugin))) end)
      (fun plugin => cbind (first r) (fun r0 => COk (rdel (name cs ORoot) (rdel (name cs OPlugin) m), mk_decoded (k_system d) (k_endpoints d) (Some (plugin, r0))))))) = CErr s k).
  { destruct (rget (name cs OPlugin) m) as [d0|] eqn:GD.
    - apply bind_err in H as [H|([] & H1 & H)]; [apply dup_err in H as (-> & -> & L); left; eauto|]. right. split; [|exact H].
      apply argck_ok in H1 as [x ->]. rewrite (vals_get _ _ _ GD). cbn. lia.
    - right. split; [unfold vals_of; rewrite GD; cbn; lia|]. exact H. }
  clear H. destruct HD as [(d0 & GD & L & -> & ->)|[LP H]].
  - split; [reflexivity|]. left. apply (too_many _ OPlugin d0); auto. discriminate.
  - apply bind_err in H as [H|([] & H1 & H)].
    + apply dup_err in H as (-> & -> & L). split; [reflexivity|]. right. right. split; [reflexivity|]. split; [|exact LP].
      rewrite (vals_get _ _ _ GR). destruct r as [|x [|y r]]; [destruct (FI _ GR)|destruct (L eq_refl)|cbn; lia].
    + apply bind_err in H as [H|(pl & _ & H)].
      * destruct (rget (name cs OPlugin) m) as [d0|] eqn:GD; [|discriminate H].
        apply bind_err in H as [H|(x & F & H)]; [destruct (first_err _ _ _ H)|]. destruct (beqb x (bstr "pwd")) eqn:B; [discriminate H|].
        injection H as <- <-. split; [reflexivity|]. left. exists OPlugin, x. split; [reflexivity|]. rewrite (vals_get _ _ _ GD) in *. apply beqb_neq in B.
        split; [|exact B]. destruct d0 as [|y [|z d0]]; [discriminate F|injection F as ->; reflexivity|cbn in LP; lia].
      * apply bind_err in H as [H|(x & _ & H)]; [destruct (first_err _ _ _ H)|discriminate H].
Qed.
Lemma mode_err os m d s k : filled m -> existsb (opt_eqb OMode) os = false -> simple cs (n_mode cs) arg_decode_mode (dels os m) d = CErr s k -> blamed m s k.
Proof.
  intros FI E H. unfold simple in H. change (n_mode cs) with (name cs OMode) in H. rewrite rget_dels_name, E in H.
  destruct (rget (name cs OMode) m) as [v|] eqn:G; [|discriminate H]. apply bind_err in H as [H|(? & _ & H)]; [|discriminate H].
  unfold arg_decode_mode in H. change (n_mode cs) with (name cs OMode) in H. apply bind_err in H as [H|([] & H1 & H)].
  - apply dup_err in H as (-> & -> & L). split; [reflexivity|]. left. apply (too_many _ OMode v); auto. discriminate.
  - apply argck_ok in H1 as [x ->]. cbn [first cbind] in H. apply bind_err in H as [H|(? & _ & H)]; [|discriminate H].
    destruct (beqb x (bstr "dev")) eqn:B1; [discriminate H|]. destruct (beqb x (bstr "prod")) eqn:B2; [discriminate H|]. apply beqb_neq in B1, B2.
    injection H as <- <-. split; [reflexivity|]. left. exists OMode, x. rewrite (vals_get _ _ _ G). auto.
Qed.
Lemma window_err os m d s k : filled m -> existsb (opt_eqb OWindow) os = false -> simple cs (n_window cs) arg_decode_window (dels os m) d = CErr s k -> blamed m s k.
Proof.
  intros FI E H. unfold simple in H. change (n_window cs) with (name cs OWindow) in H. rewrite rget_dels_name, E in H.
  destruct (rget (name cs OWindow) m) as [v|] eqn:G; [|discriminate H]. apply bind_err in H as [H|(? & _ & H)]; [|discriminate H].
  unfold arg_decode_window in H. change (n_window cs) with (name cs OWindow) in H. apply bind_err in H as [H|([] & H1 & H)].
  - apply dup_err in H as (-> & -> & L). split; [reflexivity|]. left. apply (too_many _ OWindow v); auto. discriminate.
  - apply argck_ok in H1 as [x ->]. cbn [first cbind] in H. destruct (parse_uint u64_max x) eqn:P; [discriminate H|].
    injection H as <- <-. split; [reflexivity|]. left. exists OWindow, x. rewrite (vals_get _ _ _ G). split; [reflexivity|]. split; [reflexivity|].
    intros n NU. apply parse_uint_iff in NU. unfold u64_max in P. congruence.
Qed.
Lemma parse_endpoint_err sc e s k : parse_endpoint sc e = CErr s k -> s = Some sc /\ k = EEpSyntax /\ forall pr h p, ~ ep_text pr e h p.
Proof.
  intros H. assert (N : forall pr h p, ~ ep_text pr e h p).
  { intros pr h p T. apply (parse_endpoint_iff sc) in T. congruence. }
  rewrite (parse_endpoint_fail sc e N) in H. injection H as <- <-. auto.
Qed.
Lemma tls_err os m h p e s k : filled m -> existsb (opt_eqb OCert) os = false -> existsb (opt_eqb OKey) os = false -> existsb (opt_eqb OPass) os = false ->
  In e (vals_of cs m OEndpoint) -> ep_text PTls e h p ->
  arg_decode_tls files cs (dels os m) h p = CErr s k -> blamed m s k.
Proof.
  intros FI E1 E2 E3 I T H. unfold arg_decode_tls in H.
  change (n_cert cs) with (name cs OCert) in H. change (n_key cs) with (name cs OKey) in H. change (n_pkp cs) with (name cs OPass) in H.
  rewrite !rget_rdel, !rget_dels_name, E1, E2, E3, (NK OKey OCert), (NK OPass OKey), (NK OPass OCert) in H. cbn [opt_eqb] in H.
  assert (X : forall v (c : bytes -> cres tls_ep) s k, cbind (read_file files v) c = CErr s k -> exists a : bytes, c a = CErr s k) by
    (intros v c s' k' Q; unfold read_file in Q; destruct (files v); cbn [cbind] in Q; [eauto|discriminate Q]).
  destruct (rget (name cs OCert) m) as [c|] eqn:G1.
  2:{ injection H as <- <-. split; [reflexivity|]. left. split; [eauto|]. left. unfold vals_of. rewrite G1. reflexivity. }
  destruct (rget (name cs OKey) m) as [ke|] eqn:G2.
  2:{ injection H as <- <-. split; [reflexivity|]. left. split; [eauto|]. right. left. unfold vals_of. rewrite G2. reflexivity. }
  destruct (rget (name cs OPass) m) as [q|] eqn:G3.
  2:{ injection H as <- <-. split; [reflexivity|]. left. split; [eauto|]. right. right. unfold vals_of. rewrite G3. reflexivity. }
  apply bind_err in H as [H|([] & _ & H)].
  { apply dup_err in H as (-> & -> & L). split; [reflexivity|]. left. apply (too_many _ OCert c); auto. discriminate. }
  apply bind_err in H as [H|([] & _ & H)].
  { apply dup_err in H as (-> & -> & L). split; [reflexivity|]. left. apply (too_many _ OKey ke); auto. discriminate. }
  apply bind_err in H as [H|([] & _ & H)].
  { apply dup_err in H as (-> & -> & L). split; [reflexivity|]. left. apply (too_many _ OPass q); auto. discriminate. }
  apply bind_err in H as [H|(x & _ & H)]; [destruct (first_err _ _ _ H)|].
  apply bind_err in H as [H|(y & _ & H)]; [destruct (first_err _ _ _ H)|].
  apply bind_err in H as [H|(z & _ & H)]; [destruct (first_err _ _ _ H)|].
  apply bind_err in H as [H|(ep & _ & H)]; [|discriminate H]. unfold decode_tls_ep in H.
  apply X in H as [? H]. apply X in H as [? H]. apply X in H as [? H]. discriminate H.
Qed.
Lemma endpoints_err os m d s k : filled m ->
  existsb (opt_eqb OEndpoint) os = false -> existsb (opt_eqb OCert) os = false -> existsb (opt_eqb OKey) os = false -> existsb (opt_eqb OPass) os = false ->
  arg_decode_endpoints files cs (dels os m) d = CErr s k -> blamed m s k.
Proof.
  intros FI E E1 E2 E3 H. unfold arg_decode_endpoints in H. change (n_ep cs) with (name cs OEndpoint) in H. rewrite rget_dels_name, E in H.
  destruct (rget (name cs OEndpoint) m) as [eps|] eqn:G; [|discriminate H].
  change (rdel (name cs OEndpoint) (dels os m)) with (dels [OEndpoint] (dels os m)) in H. rewrite <- dels_app in H.
  pose proof (vals_get _ _ _ G) as V.
  assert (F1 : existsb (opt_eqb OCert) (os ++ [OEndpoint]) = false) by (rewrite existsb_app, E1; reflexivity).
  assert (F2 : existsb (opt_eqb OKey) (os ++ [OEndpoint]) = false) by (rewrite existsb_app, E2; reflexivity).
  assert (F3 : existsb (opt_eqb OPass) (os ++ [OEndpoint]) = false) by (rewrite existsb_app, E3; reflexivity).
  assert (SYN : forall e, In e eps -> parse_endpoint (n_src cs) e = CErr s k -> blamed m s k).
  { intros e I P. apply parse_endpoint_err in P as (-> & -> & N). split; [reflexivity|]. left. exists e. rewrite V. auto. }
  assert (TLS : forall e h p, In e eps -> ep_text PTls e h p -> arg_decode_tls files cs (dels (os ++ [OEndpoint]) m) h p = CErr s k -> blamed m s k).
  { intros e h p I T Q. eapply (tls_err (os ++ [OEndpoint]) m h p e); eauto. rewrite V. exact I. }
  assert (FIN : forall (x : cres (rawargs * (option tls_ep * option tcp_ep))), cbind x (fun '(args, (secure, insecure)) =>
      match secure, insecure with None, None => COk (args, d) | _, _ => COk (args, mk_decoded (k_system d) (Some (secure, insecure)) (k_auth d)) end) = CErr s k -> x = CErr s k).
  { intros x Q. apply bind_err in Q as [Q|([a [[se|] [ins|]]] & _ & Q)]; [exact Q|discriminate Q..]. }
  set (os' := os ++ [OEndpoint]) in *. clearbody os'.
  destruct eps as [|e1 [|e2 [|e3 eps]]].
  - destruct (FI _ G).
  - apply FIN in H. cbn [endpoints_loop] in H. apply bind_err in H as [H|([[pr h] p] & P & H)]; [apply (SYN e1); [left; reflexivity|exact H]|].
    apply parse_endpoint_iff in P. destruct pr; [discriminate H|]. apply bind_err in H as [H|([a x] & _ & H)]; [|discriminate H].
    apply (TLS e1 h p); [left; reflexivity|exact P|exact H].
  - apply FIN in H. cbn [endpoints_loop] in H. apply bind_err in H as [H|([[pr h] p] & P & H)]; [apply (SYN e1); [left; reflexivity|exact H]|].
    apply parse_endpoint_iff in P. destruct pr.
    + apply bind_err in H as [H|([[pr2 h2] p2] & P2 & H)]; [apply (SYN e2); [right; left; reflexivity|exact H]|].
      apply parse_endpoint_iff in P2. destruct pr2.
      * injection H as <- <-. split; [reflexivity|]. left. exists PTcp, e1, h, p, e2, h2, p2. rewrite V. auto.
      * apply bind_err in H as [H|([a x] & _ & H)]; [|discriminate H]. apply (TLS e2 h2 p2); [right; left; reflexivity|exact P2|exact H].
    + apply bind_err in H as [H|([a x] & Q & H)]; [apply (TLS e1 h p); [left; reflexivity|exact P|exact H]|].
      apply bind_err in H as [H|([[pr2 h2] p2] & P2 & H)]; [apply (SYN e2); [right; left; reflexivity|exact H]|].
      apply parse_endpoint_iff in P2. destruct pr2; [discriminate H|].
      injection H as <- <-. split; [reflexivity|]. left. exists PTls, e1, h, p, e2, h2, p2. rewrite V. auto.
  - injection H as <- <-. split; [reflexivity|]. left. exists OEndpoint. rewrite V. cbn [length]. repeat split; lia.
Qed.
Theorem apply_err m s k : filled m -> apply_and_validate files cs m = CErr s k -> blamed m s k.
Proof.
  intros FI H. unfold apply_and_validate, apply_changes in H. apply bind_err in H as [H|(d & H & HV)].
  - apply bind_err in H as [H|([a1 d1] & A & H)]; [eapply auth_err; eauto|]. apply (auth_iff _ _ _ _ FI) in A as (-> & _).
    apply bind_err in H as [H|([a2 d2] & M & H)]; [eapply mode_err in H; [exact H|exact FI|reflexivity]|]. apply mode_iff in M as (-> & _); [|exact FI|reflexivity].
    apply bind_err in H as [H|([a3 d3] & W & H)]; [eapply window_err in H; [exact H|exact FI|reflexivity]|]. apply window_iff in W as (-> & _); [|exact FI|reflexivity].
    apply bind_err in H as [H|([a4 d4] & EP & H)]; [eapply endpoints_err in H; [exact H|exact FI|reflexivity..]|].
    apply endpoints_iff in EP; [|exact FI|reflexivity..]. destruct a4 as [|e a4]; [discriminate H|]. injection H as <- <-. split; [reflexivity|]. left.
    cbn [fault]. assert (ND : forall os, e :: a4 = dels os m -> ~ (known cs m /\ forall o, ~ In o os -> vals_of cs m o = [])).
    { intros os Q [K N]. assert (Z : dels os m = []) by (apply known_dels; [exact K|]; intros o NI; apply vals_none; auto). congruence. }
    assert (KD : forall os, e :: a4 = dels os m -> ~ known cs m \/ exists o, ~ In o os /\ vals_of cs m o <> []).
    { intros os Q. assert (G : exists k l, rget k (dels os m) = Some l). { rewrite <- Q. destruct e as [k0 l0]. exists k0, l0. unfold rget. cbn [aget]. rewrite beqb_refl. reflexivity. }
      destruct G as (k0 & l0 & G). rewrite rget_dels in G. destruct (existsb (fun o => beqb k0 (name cs o)) os) eqn:EX; [discriminate G|].
      destruct (existsb (fun o => beqb k0 (name cs o)) all_opts) eqn:EA.
      - apply existsb_exists in EA as (o & _ & B). apply beqb_eq in B. subst k0. right. exists o. split.
        + intros I. assert (Y : existsb (fun o' => beqb (name cs o) (name cs o')) os = true) by (apply existsb_exists; exists o; split; [exact I|apply beqb_refl]). congruence.
        + rewrite (vals_get _ _ _ G). intros ->. destruct (FI _ G).
      - left. intros K. destruct (K _ _ G) as [o ->]. assert (Y : existsb (fun o' => beqb (name cs o) (name cs o')) all_opts = true)
          by (apply existsb_exists; exists o; split; [destruct o; unfold all_opts; inl|apply beqb_refl]). congruence. }
    assert (TW : forall o, ~ In o ((([OPlugin; ORoot] ++ [OMode]) ++ [OWindow]) ++ [OEndpoint]) -> vals_of cs m o <> [] -> ~ no_tls_options (vals_of cs m)).
    { intros o NI NE (N1 & N2 & N3). destruct o; try (apply NI; inl; fail); congruence. }
    destruct EP as [(V & Q & _)|(r & EG & Q & _)].
    + apply KD in Q as [K|(o & NI & NE)]; [left; exact K|right]. split; [apply (TW o NI NE)|]. intros e0 h p I. rewrite V in I. destruct I.
    + destruct r as [[x|] t]; cbn [fst] in Q.
      * apply KD in Q as [K|(o & NI & NE)]; [left; exact K|]. exfalso. apply NI. destruct o; inl.
      * rewrite app_nil_r in Q. apply KD in Q as [K|(o & NI & NE)]; [left; exact K|right]. split; [apply (TW o NI NE)|].
        intros e0 h p I T. inversion EG as [e1 h1 p1 P1 EV|e1 h1 p1 s1 P1 T1 EV|e1 h1 p1 e2 h2 p2 s1 P1 P2 T1 EV|e1 h1 p1 e2 h2 p2 s1 P1 P2 T1 EV]; subst.
        rewrite <- EV in I. destruct I as [<-|[]]. apply (parse_endpoint_iff SCli) in T, P1. congruence.
  - apply bind_err in HV as [HV|(c & _ & HV)]; [|discriminate HV].
    apply bind_ok in H as ([a1 d1] & A & H). apply (auth_iff _ _ _ _ FI) in A as (-> & _ & p & RT & ->).
    apply bind_ok in H as ([a2 d2] & M & H). apply mode_iff in M as (-> & M); [|exact FI|reflexivity].
    apply bind_ok in H as ([a3 d3] & W & H). apply window_iff in W as (-> & W); [|exact FI|reflexivity].
    apply bind_ok in H as ([a4 d4] & EP & H). apply endpoints_iff in EP; [|exact FI|reflexivity..]. destruct a4; [|discriminate H]. injection H as <-.
    assert (SYS : k_auth d4 = Some (Pwd, p) /\ k_system d4 = k_system d3).
    { assert (Y : k_auth d4 = k_auth d3 /\ k_system d4 = k_system d3) by (destruct EP as [(_ & _ & ->)|(r & _ & _ & ->)]; auto). destruct Y as [Y Y2]. split; [|exact Y2]. rewrite Y.
      assert (Y3 : k_auth d3 = k_auth d2) by (destruct W as [[_ ->]|(t & n & _ & _ & ->)]; reflexivity). rewrite Y3.
      destruct M as [[_ ->]|(md & _ & ->)]; reflexivity. }
    destruct SYS as [KA KS]. unfold validate in HV. rewrite KA, KS in HV. cbn [default_config c_root c_mode c_window c_ep c_auth fst snd] in HV.
    destruct (N.eqb_spec (match k_system d3 with Some (_, Some w) => w | _ => 300 end) 0) as [Z|Z].
    + injection HV as <- <-. split; [reflexivity|]. left. cbn [fault].
      destruct W as [[_ ->]|(t & n & V & NU & ->)].
      * exfalso. destruct M as [[_ ->]|(md & _ & ->)]; discriminate Z.
      * exists t. split; [exact V|]. unfold set_window in Z. cbn [k_system] in Z. destruct (k_system d2) as [[md w]|]; cbn in Z; subst n; exact NU.
    + destruct (N.ltb_spec (len p) 16) as [L|L]; [|discriminate HV]. injection HV as <- <-. split; [reflexivity|]. left. exists p. auto.
Qed.
End Opts.

(** ** Command lines *)

Lemma rget_push k k' v m : rget k (push k' v m) = if beqb k k' then Some (match rget k m with Some l => l | None => [] end ++ [v]) else rget k m.
Proof.
  unfold push. destruct (beqb k k') eqn:E.
  - apply beqb_eq in E. subst k'. destruct (rget k m) as [l|]; unfold rget; rewrite (aget_put_same _ beqb_eq); reflexivity.
  - apply beqb_neq in E. destruct (rget k' m) as [l|]; unfold rget; rewrite (aget_put_other _ beqb_eq) by exact E; reflexivity.
Qed.
Definition pushes (ps : list (bytes * bytes)) (m : rawargs) : rawargs := fold_left (fun m p => push (fst p) (snd p) m) ps m.
Lemma values_cons k k' v ps : values k ((k', v) :: ps) = if beqb k k' then v :: values k ps else values k ps.
Proof.
  cbn [values]. destruct (list_eq_dec Byte.byte_eq_dec k k') as [->|N]; [rewrite beqb_refl; reflexivity|].
  apply beqb_neq in N. rewrite N. reflexivity.
Qed.
Lemma rget_pushes ps : forall m k, rget k (pushes ps m) =
  match values k ps with [] => rget k m | l => Some (match rget k m with Some x => x | None => [] end ++ l) end.
Proof.
  induction ps as [|[k' v] ps IH]; intros m k; [reflexivity|]. unfold pushes. cbn [fold_left fst snd]. fold (pushes ps (push k' v m)).
  rewrite IH, values_cons, rget_push. destruct (beqb k k') eqn:E; [|reflexivity].
  destruct (values k ps) as [|x l]; [reflexivity|]. rewrite <- app_assoc. reflexivity.
Qed.
Lemma rget_pushes0 ps k : rget k (pushes ps []) = match values k ps with [] => None | l => Some l end.
Proof. rewrite rget_pushes. destruct (values k ps); reflexivity. Qed.
Lemma values_in k ps : values k ps <> [] <-> exists v, In (k, v) ps.
Proof.
  induction ps as [|[k' v] ps IH]; [split; [intros H; destruct (H eq_refl)|intros [v []]]|]. rewrite values_cons. destruct (beqb k k') eqn:E.
  - apply beqb_eq in E. subst. split; [intros _; exists v; left; reflexivity|discriminate].
  - apply beqb_neq in E. rewrite IH. split.
    + intros [w I]. exists w. right. exact I.
    + intros [w [I|I]]; [injection I as ? ?; congruence|]. exists w. exact I.
Qed.
Lemma pushes_filled ps : filled (pushes ps []).
Proof. intros k. rewrite rget_pushes0. destruct (values k ps); discriminate. Qed.
Lemma pushes_nil ps : pushes ps [] = [] <-> ps = [].
Proof.
  split; [|intros ->; reflexivity]. intros H. destruct ps as [|[k v] ps]; [reflexivity|]. exfalso.
  pose proof (rget_pushes0 ((k, v) :: ps) k) as R. rewrite H, values_cons, beqb_refl in R. discriminate R.
Qed.

Lemma has_eq k v : In x3d (k ++ bstr "=" ++ v).
Proof. apply in_or_app. right. left. reflexivity. Qed.
Lemma no_eq_neq a b : In x3d a -> free x3d b -> beqb a b = false.
Proof. intros I F. apply beqb_neq. intros ->. exact (F I). Qed.
Ltac notin := let H := fresh in intros H; vm_compute in H; repeat (destruct H as [H|H]; [discriminate H|]); exact H.

(** what a complete list of options does *)
Lemma cmdline_run l ps : cmdline l ps -> forall rest m, cli_loop (l ++ rest) m = cli_loop rest (pushes ps m).
Proof.
  induction 1 as [|k v l ps F1 F2 ST L C IH|k v l ps F1 ST N1 N2 C IH]; intros rest m; [reflexivity| |].
  - cbn [app]. cbn [cli_loop]. pose proof (has_eq k v) as HE.
    rewrite (no_eq_neq _ (bstr "--help") HE ltac:(notin)), (no_eq_neq _ (bstr "-h") HE ltac:(notin)),
      (no_eq_neq _ (bstr "--version") HE ltac:(notin)), (no_eq_neq _ (bstr "-v") HE ltac:(notin)). cbn [orb].
    rewrite (proj2 (starts_iff _ _) ST). cbn [negb].
    rewrite (proj2 (split_two x3d _ k v)) by auto.
    destruct (N.leb_spec 5 (len (k ++ bstr "=" ++ v))) as [_|Q]; [apply IH|]. unfold len in Q. lia.
  - cbn [app]. cbn [cli_loop]. rewrite (proj2 (beqb_neq _ _) N1), (proj2 (beqb_neq _ _) N2).
    destruct ST as [r ->].
    replace (beqb (bstr "--" ++ r) (bstr "-h")) with false by (symmetry; apply beqb_neq; discriminate).
    replace (beqb (bstr "--" ++ r) (bstr "-v")) with false by (symmetry; apply beqb_neq; discriminate). cbn [orb].
    rewrite (proj2 (starts_iff _ _)) by eauto. cbn [negb]. rewrite (split_free _ _ F1). apply IH.
Qed.

Definition is_help (h : bytes) : Prop := h = bstr "--help" \/ h = bstr "-h".
Definition is_version (h : bytes) : Prop := h = bstr "--version" \/ h = bstr "-v".
Definition cli_means (l : list bytes) (m : rawargs) (r : cliret) : Prop :=
  match r with
  | ClDefault => l = [] /\ m = []
  | ClArgs m' => exists ps, cmdline l ps /\ m' = pushes ps m /\ m' <> []
  | ClHelp => exists pre ps h rest, l = pre ++ h :: rest /\ cmdline pre ps /\ is_help h
  | ClVersion => exists pre ps h rest, l = pre ++ h :: rest /\ cmdline pre ps /\ is_version h
  end.
Lemma push_ne k v m : push k v m <> [].
Proof. intros H. pose proof (rget_push k k v m) as R. rewrite H, beqb_refl in R. discriminate R. Qed.
Lemma cli_means_step p1 q1 l m r : (forall l' ps, cmdline l' ps -> cmdline (p1 ++ l') (q1 ++ ps)) -> length q1 = 1%nat ->
  cli_means l (pushes q1 m) r -> cli_means (p1 ++ l) m r.
Proof.
  intros C L1. destruct q1 as [|[k v] [|? ?]]; try discriminate L1. change (pushes [(k, v)] m) with (push k v m). destruct r as [| | |m']; cbn [cli_means].
  - intros [_ H]. destruct (push_ne _ _ _ H).
  - intros (pre & ps & h & rest & -> & D & I). exists (p1 ++ pre), ([(k, v)] ++ ps), h, rest. rewrite <- app_assoc. auto.
  - intros (pre & ps & h & rest & -> & D & I). exists (p1 ++ pre), ([(k, v)] ++ ps), h, rest. rewrite <- app_assoc. auto.
  - intros (ps & D & E & NE). exists ([(k, v)] ++ ps). auto.
Qed.
Lemma cli_forward n : forall l m r, (length l <= n)%nat -> cli_loop l m = COk r -> cli_means l m r.
Proof.
  induction n as [|n IH]; intros l m r L H.
  - destruct l; [|cbn in L; lia]. cbn [cli_loop] in H. injection H as <-. destruct m; [split; reflexivity|].
    exists []. split; [constructor|]. split; [reflexivity|discriminate].
  - destruct l as [|a l]; [apply IH; [cbn; lia|exact H]|]. cbn [cli_loop] in H.
    destruct (beqb a (bstr "--help") || beqb a (bstr "-h")) eqn:E1.
    { injection H as <-. exists [], [], a, l. split; [reflexivity|]. split; [constructor|]. apply orb_true_iff in E1 as [E1|E1]; apply beqb_eq in E1; unfold is_help; auto. }
    destruct (beqb a (bstr "--version") || beqb a (bstr "-v")) eqn:E2.
    { injection H as <-. exists [], [], a, l. split; [reflexivity|]. split; [constructor|]. apply orb_true_iff in E2 as [E2|E2]; apply beqb_eq in E2; unfold is_version; auto. }
    apply orb_false_iff in E1 as [E1 _]. apply orb_false_iff in E2 as [E2 _]. apply beqb_neq in E1, E2.
    destruct (starts_with (bstr "--") a) eqn:ST; [|discriminate]. apply starts_iff in ST. cbn [negb] in H.
    destruct (split_on x3d a) as [|k [|v [|z t]]] eqn:S; try discriminate.
    + apply split_one in S as [F ->]. destruct l as [|v l]; [discriminate|]. apply IH in H; [|cbn in L; lia].
      apply (cli_means_step [a; v] [(a, v)]); [|reflexivity|exact H]. intros l' ps D. constructor; auto.
    + apply split_two in S as (F1 & F2 & ->). destruct (N.leb_spec 5 (len (k ++ x3d :: v))) as [L5|_]; [|discriminate].
      apply IH in H; [|cbn in L; lia]. apply (cli_means_step [k ++ x3d :: v] [(k, v)]); [|reflexivity|exact H].
      intros l' ps D. apply (cm_eq k v); auto. unfold len in L5. change (bstr "=" ++ v) with (x3d :: v). lia.
Qed.
Lemma cli_iff l r : cli_loop l [] = COk r <-> cli_means l [] r.
Proof.
  split; [apply (cli_forward _ l [] r (le_n _))|]. destruct r as [| | |m']; cbn [cli_means].
  - intros [-> _]. reflexivity.
  - intros (pre & ps & h & rest & -> & C & I). rewrite (cmdline_run _ _ C). destruct I as [-> | ->]; reflexivity.
  - intros (pre & ps & h & rest & -> & C & I). rewrite (cmdline_run _ _ C). destruct I as [-> | ->]; reflexivity.
  - intros (ps & C & -> & NE). pose proof (cmdline_run _ _ C [] []) as R. rewrite app_nil_r in R. rewrite R. cbn [cli_loop].
    destruct (pushes ps []); [congruence|reflexivity].
Qed.
Lemma cli_no_panic n : forall l m, (length l <= n)%nat -> cli_loop l m <> CPanic /\ cli_loop l m <> CIo.
Proof.
  induction n as [|n IH]; intros l m L; (destruct l as [|a l]; [split; discriminate|]); [cbn in L; lia|]. cbn [cli_loop].
  destruct (_ || _); [split; discriminate|]. destruct (_ || _); [split; discriminate|]. destruct (negb _); [split; discriminate|].
  destruct (split_on x3d a) as [|k [|v [|z t]]]; try (split; discriminate).
  - destruct l; [split; discriminate|]. apply IH. cbn in L. lia.
  - destruct (5 <=? len a); [|split; discriminate]. apply IH. cbn in L. lia.
Qed.

(** ** Environments *)

Lemma env_loop_ok env keys : forall m m', env_loop env keys m = COk m' ->
  (forall k, In k keys -> env k <> NotUnicode) /\
  (forall k, rget k m' = if existsb (beqb k) keys then match env k with Var v => Some (split_on x2c v) | _ => rget k m end else rget k m).
Proof.
  induction keys as [|x keys IH]; intros m m' H; cbn [env_loop] in H.
  - injection H as <-. split; [intros k []|reflexivity].
  - destruct (env x) as [| |v] eqn:E; [|discriminate|].
    + apply IH in H as [A B]. split; [intros k [<-|I]; [congruence|auto]|]. intros k. rewrite B. cbn [existsb].
      destruct (beqb k x) eqn:Q; [|reflexivity]. apply beqb_eq in Q. subst k. rewrite E. destruct (existsb _ keys); reflexivity.
    + apply IH in H as [A B]. split; [intros k [<-|I]; [congruence|auto]|]. intros k. rewrite B. cbn [existsb].
      unfold rget. destruct (beqb k x) eqn:Q.
      * apply beqb_eq in Q. subst k. rewrite E, (aget_put_same _ beqb_eq). destruct (existsb _ keys); reflexivity.
      * apply beqb_neq in Q. rewrite (aget_put_other _ beqb_eq) by exact Q. reflexivity.
Qed.
Lemma env_loop_total env keys : forall m, (forall k, In k keys -> env k <> NotUnicode) -> exists m', env_loop env keys m = COk m'.
Proof.
  induction keys as [|x keys IH]; intros m H; cbn [env_loop]; [eauto|]. destruct (env x) eqn:E.
  - apply IH. intros k I. apply H. right. exact I.
  - destruct (H x); [left; reflexivity|exact E].
  - apply IH. intros k I. apply H. right. exact I.
Qed.
Lemma env_keys_names k : In k env_keys <-> exists o, k = env_name o.
Proof.
  split.
  - intros I. unfold env_keys in I. cbn [In] in I.
    destruct I as [<-|[<-|[<-|[<-|[<-|[<-|[<-|[<-|[]]]]]]]]]; [exists OPlugin|exists ORoot|exists OEndpoint|exists OMode|exists OWindow|exists OCert|exists OKey|exists OPass]; reflexivity.
  - intros [o ->]. unfold env_keys. destruct o; cbn [env_name src_env n_driver n_root n_ep n_mode n_window n_cert n_key n_pkp]; repeat (first [left; reflexivity|right]).
Qed.
Lemma env_key_b o : existsb (beqb (env_name o)) env_keys = true.
Proof. apply existsb_exists. exists (env_name o). split; [apply env_keys_names; eauto|apply beqb_refl]. Qed.

Lemma env_ok env m : env_loop env env_keys [] = COk m ->
  (forall o, env (env_name o) <> NotUnicode) /\
  (forall o, rget (env_name o) m = match env (env_name o) with Var v => Some (split_on x2c v) | _ => None end) /\
  known src_env m /\ filled m.
Proof.
  intros H. apply env_loop_ok in H as [A B]. split; [intros o; apply A, env_keys_names; eauto|]. split; [|split].
  - intros o. rewrite B, env_key_b. reflexivity.
  - intros k l G. rewrite B in G. destruct (existsb (beqb k) env_keys) eqn:E; [|discriminate G].
    apply existsb_exists in E as (x & I & E). apply beqb_eq in E. subst x. apply env_keys_names in I as [o ->]. exists o. symmetry. apply env_name_name.
  - intros k G. rewrite B in G. destruct (existsb (beqb k) env_keys); [|discriminate G]. destruct (env k) as [| |v]; try discriminate G.
    destruct (split_join x2c v) as [X _]. congruence.
Qed.
Lemma join_joinc l : join l = joinc x2c l.
Proof.
  induction l as [|x [|y l] IH]; [reflexivity|reflexivity|].
  change (join (x :: y :: l)) with (x ++ x2c :: join (y :: l)). change (joinc x2c (x :: y :: l)) with (x ++ x2c :: joinc x2c (y :: l)).
  rewrite IH. reflexivity.
Qed.
Lemma env_has_vals env m vals : env_loop env env_keys [] = COk m -> env_has env vals -> forall o, vals_of src_env m o = vals o.
Proof.
  intros H E o. apply env_ok in H as (_ & G & _). specialize (E o). unfold vals_of. rewrite env_name_name, G.
  destruct (env (env_name o)) as [| |v]; [auto|contradiction|]. destruct E as (NE & F & ->). apply split_iff. rewrite <- join_joinc. auto.
Qed.
Lemma env_has_of env m : env_loop env env_keys [] = COk m -> env_has env (vals_of src_env m).
Proof.
  intros H o. destruct (env_ok _ _ H) as (A & G & _). specialize (A o).
  assert (V : vals_of src_env m o = match env (env_name o) with Var v => split_on x2c v | _ => [] end)
    by (unfold vals_of; rewrite env_name_name, G; destruct (env (env_name o)); reflexivity).
  rewrite V. destruct (env (env_name o)) as [| |v]; [reflexivity|congruence|]. destruct (split_join x2c v) as (X & Y & Z). rewrite join_joinc. auto.
Qed.
Lemma env_nil env m : env_loop env env_keys [] = COk m -> (m = [] <-> env_empty env).
Proof.
  intros H. destruct (env_ok _ _ H) as (A & G & K & _). split.
  - intros -> o. specialize (G o). specialize (A o). destruct (env (env_name o)); [reflexivity|congruence|discriminate G].
  - intros E. apply rget_nil. intros k. destruct (rget k m) as [l|] eqn:R; [|reflexivity]. destruct (K _ _ R) as [o ->].
    rewrite env_name_name, G, (E o) in R. discriminate R.
Qed.
Lemma settled_ext files v1 v2 c : (forall o, v1 o = v2 o) -> settled files v1 c -> settled files v2 c.
Proof.
  intros E [R P M W EP]. constructor; rewrite <- ?E; auto.
  assert (T : forall t s, tls_of files v1 t s -> tls_of files v2 t s) by (unfold tls_of; intros t s; rewrite !E; auto).
  assert (NT : no_tls_options v1 -> no_tls_options v2) by (unfold no_tls_options; rewrite !E; auto).
  destruct EP; [constructor|constructor|econstructor|econstructor|eapply ep_both']; eauto.
Qed.

(** ** Files *)

Lemma validate_file files sc d c :
  (cbind (match k_endpoints d with
          | Some (Some s, t) =>
              cbind (read_file files (s_cert s)) (fun ce => cbind (read_file files (s_key s)) (fun k => cbind (read_file files (s_pass s)) (fun p =>
              COk (mk_decoded (k_system d) (Some (Some (mk_tls (s_tcp s) ce k p), t)) (k_auth d)))))
          | _ => COk d
          end) (fun d => cbind (validate sc d) (fun c => COk (RConfig c))) = COk (RConfig c)) <-> file_settled files d c.
Proof.
  assert (V : forall d' c, cbind (validate sc d') (fun c => COk (RConfig c)) = COk (RConfig c) <->
    k_auth d' = Some (c_auth c, c_root c) /\ 16 <= len (c_root c) /\
    c_mode c = match k_system d' with Some (Some m, _) => m | _ => Dev end /\
    c_window c = match k_system d' with Some (_, Some w) => w | _ => 300 end /\ c_window c <> 0 /\
    c_ep c = match k_endpoints d' with None | Some (None, None) => EpInsecure (mk_tcp (bstr "127.0.0.1") 2003) | Some (None, Some t) => EpInsecure t
             | Some (Some s, Some t) => EpMulti t s | Some (Some s, None) => EpSecure s end).
  { clear. intros d c. unfold validate. destruct (k_auth d) as [[drv root]|]; [|split; [discriminate|intros [H _]; discriminate H]].
    cbn [default_config c_root c_mode c_window c_ep c_auth fst snd].
    set (w := match k_system d with Some (_, Some w) => w | _ => 300 end).
    set (e := match k_endpoints d with None | Some (None, None) => _ | Some (None, Some t) => _ | Some (Some s, Some t) => _ | Some (Some s, None) => _ end).
    set (md := match k_system d with Some (Some m, _) => m | _ => Dev end).
    destruct (N.eqb_spec w 0) as [Z|Z]. { split; [discriminate|]. intros (_ & _ & _ & H & H' & _). congruence. }
    destruct (N.ltb_spec (len root) 16) as [Q|Q]. { split; [discriminate|]. intros (H & H' & _). injection H as _ ->. lia. }
    cbn [cbind]. destruct c as [ep mo wi au ro]. cbn [c_root c_mode c_window c_ep c_auth]. split.
    - intros H. injection H as <- <- <- <- <-. auto 8.
    - intros (H & _ & -> & -> & _ & ->). injection H as <- <-. reflexivity. }
  assert (S : forall d', k_auth d' = k_auth d -> k_system d' = k_system d ->
    (file_ep files (k_endpoints d) (c_ep c) <-> c_ep c = match k_endpoints d' with None | Some (None, None) => EpInsecure (mk_tcp (bstr "127.0.0.1") 2003) | Some (None, Some t) => EpInsecure t
             | Some (Some s, Some t) => EpMulti t s | Some (Some s, None) => EpSecure s end) ->
    (cbind (validate sc d') (fun c => COk (RConfig c)) = COk (RConfig c) <-> file_settled files d c)).
  { intros d' A B E. rewrite V, A, B, <- E. split.
    - intros (H1 & H2 & H3 & H4 & H5 & H6). constructor; auto; destruct (k_system d) as [[[m|] [w|]]|]; auto.
    - intros [[H1 H2] H3 [H5 H4] H6]. destruct (k_system d) as [[[m|] [w|]]|]; auto 8. }
  destruct (k_endpoints d) as [[[s|] t]|] eqn:E.
  - unfold read_file.
    destruct (files (s_cert s)) as [ce|] eqn:F1; [|split; [discriminate|]; intros [_ _ _ X]; rewrite E in X; inversion X; congruence].
    destruct (files (s_key s)) as [k|] eqn:F2; [|split; [discriminate|]; intros [_ _ _ X]; rewrite E in X; inversion X; congruence].
    destruct (files (s_pass s)) as [p|] eqn:F3; [|split; [discriminate|]; intros [_ _ _ X]; rewrite E in X; inversion X; congruence].
    cbn [cbind]. apply S; [reflexivity|reflexivity|]. rewrite ?E. cbn [k_endpoints]. split.
    + intros X. inversion X as [| | |? s' T C K P|? s' ? T C K P]; subst; destruct s' as [q1 q2 q3 q4]; cbn [s_tcp s_cert s_key s_pass] in *; subst;
        rewrite F1 in C; rewrite F2 in K; rewrite F3 in P; injection C as <-; injection K as <-; injection P as <-; reflexivity.
    + intros ->. destruct t as [t|]; constructor; auto.
  - cbn [cbind]. apply S; [reflexivity|reflexivity|]. rewrite ?E. split; [intros X; inversion X; reflexivity|]. intros ->. destruct t; constructor.
  - cbn [cbind]. apply S; [reflexivity|reflexivity|]. rewrite ?E. split; [intros X; inversion X; reflexivity|]. intros ->. constructor.
Qed.

Lemma file_iff files yaml ps c v : rget arg_config (pushes ps []) = Some v ->
  (check_file files yaml (pushes ps []) None v = COk (RConfig c) <->
   exists f t d, ps = [(bstr "--config", f)] /\ files f = Some t /\ yaml t = Some d /\ file_settled files d c).
Proof.
  intros R. pose proof (fun k => rget_pushes0 ps k) as RP. unfold check_file.
  assert (ONE : (exists e, pushes ps [] = [e]) <-> forall p, In p ps -> fst p = arg_config).
  { split.
    - intros [[k l] E] [k' v'] I. cbn [fst]. assert (Q : forall k2, rget k2 (pushes ps []) <> None -> k2 = k).
      { intros k2 NE. rewrite E in NE. unfold rget in NE. cbn [aget] in NE. destruct (beqb k2 k) eqn:B; [apply beqb_eq in B; exact B|congruence]. }
      rewrite (Q arg_config) by (rewrite R; discriminate). apply Q. rewrite RP. destruct (values k' ps) eqn:V; [|discriminate].
      destruct (proj2 (values_in k' ps) (ex_intro _ v' I) V).
    - intros H. assert (K : forall ps m, (forall p, In p ps -> fst p = arg_config) -> (exists l, m = [(arg_config, l)]) -> exists l, pushes ps m = [(arg_config, l)]).
      { clear. induction ps as [|[k v] ps IH]; intros m H M; [exact M|]. unfold pushes. cbn [fold_left fst snd]. fold (pushes ps (push k v m)). apply IH.
        - intros p I. apply H. right. exact I.
        - pose proof (H (k, v) (or_introl eq_refl)) as E. cbn [fst] in E. rewrite E. destruct M as [l ->]. exists (l ++ [v]). vm_compute. reflexivity. }
      destruct ps as [|[k v'] ps]; [discriminate R|]. unfold pushes. cbn [fold_left fst snd]. fold (pushes ps (push k v' [])).
      destruct (K ps (push k v' [])) as [l E].
      + intros p I. apply H. right. exact I.
      + pose proof (H (k, v') (or_introl eq_refl)) as E. cbn [fst] in E. rewrite E. exists [v']. reflexivity.
      + rewrite E. eauto. }
  assert (FW : forall f, ps = [(arg_config, f)] -> v = [f]).
  { intros f ->. rewrite RP, values_cons, beqb_refl in R. cbn [values] in R. congruence. }
  assert (BW : forall f, (forall p, In p ps -> fst p = arg_config) -> v = [f] -> ps = [(arg_config, f)]).
  { intros f A ->. rewrite RP in R. destruct ps as [|[k1 v1] [|[k2 v2] ps']]; [discriminate R| |].
    - pose proof (A _ (or_introl eq_refl)) as E. cbn [fst] in E. rewrite E in *. rewrite values_cons, beqb_refl in R. cbn [values] in R. congruence.
    - pose proof (A _ (or_introl eq_refl)) as E. pose proof (A _ (or_intror (or_introl eq_refl))) as E'. cbn [fst] in E, E'. rewrite E, E' in R.
      rewrite !values_cons, beqb_refl in R. discriminate R. }
  destruct (pushes ps []) as [|e [|e2 m]] eqn:EP.
  - split; [discriminate|]. intros (f & t & d & P & _). apply pushes_nil in EP. congruence.
  - pose proof (proj1 ONE (ex_intro _ e eq_refl)) as A. destruct v as [|f [|f2 v]].
    + rewrite RP in R. destruct (values arg_config ps); discriminate R.
    + specialize (BW f A eq_refl). cbn [argck_dup cbind first]. unfold read_file. destruct (files f) as [t|] eqn:F.
      2:{ split; [discriminate|]. intros (f' & t & d & P & F' & _). change (bstr "--config") with arg_config in P. congruence. }
      cbn [cbind]. destruct (yaml t) as [d|] eqn:Y.
      2:{ split; [discriminate|]. intros (f' & t' & d & P & F' & Y' & _). change (bstr "--config") with arg_config in P. congruence. }
      pose proof (validate_file files SFile d c) as VF. unfold read_file in VF. rewrite VF. split.
      * intros S. exists f, t, d. auto.
      * intros (f' & t' & d' & P & F' & Y' & S). change (bstr "--config") with arg_config in P. assert (f = f') by congruence. assert (t = t') by congruence.
        assert (d = d') by congruence. subst d'. exact S.
    + split; [discriminate|]. intros (f' & t' & d' & P & _). change (bstr "--config") with arg_config in P. specialize (FW _ P). discriminate FW.
  - split; [discriminate|]. intros (f' & t' & d' & P & _). change (bstr "--config") with arg_config in P. rewrite P in EP. discriminate EP.
Qed.

(** ** All together *)
Lemma known_pairs ps : known src_cli (pushes ps []) <-> Forall (fun p => exists o, fst p = cli_name o) ps.
Proof.
  rewrite Forall_forall. split.
  - intros K [k v] I. cbn [fst]. destruct (rget k (pushes ps [])) as [l|] eqn:E.
    + destruct (K _ _ E) as [o ->]. exists o. apply cli_name_name.
    + rewrite rget_pushes0 in E. destruct (values k ps) eqn:V; [|discriminate E]. destruct (proj2 (values_in k ps) (ex_intro _ v I) V).
  - intros H k l G. rewrite rget_pushes0 in G. destruct (values k ps) as [|x y] eqn:V; [discriminate G|].
    destruct (proj1 (values_in k ps)) as [v I]; [rewrite V; discriminate|]. destruct (H _ I) as [o E]. exists o. rewrite cli_name_name. exact E.
Qed.
Lemma vals_pushes ps o : vals_of src_cli (pushes ps []) o = values (cli_name o) ps.
Proof. unfold vals_of. rewrite cli_name_name, rget_pushes0. destruct (values (cli_name o) ps); reflexivity. Qed.
Lemma cmdline_fun l ps : cmdline l ps -> forall ps', cmdline l ps' -> pushes ps [] = pushes ps' [].
Proof.
  intros C ps' C'. pose proof (cmdline_run _ _ C [] []) as R. pose proof (cmdline_run _ _ C' [] []) as R'. rewrite R in R'. cbn [cli_loop] in R'.
  injection R' as E. destruct (pushes ps []) as [|? ?], (pushes ps' []) as [|? ?]; congruence.
Qed.
Lemma config_not_name o : arg_config <> cli_name o.
Proof. destruct o; intros H; discriminate H. Qed.

Theorem check_iff files yaml utf8 argv env c :
  check files yaml utf8 argv env = COk (RConfig c) <-> forallb utf8 argv = true /\ configured files yaml argv env c.
Proof.
  unfold check, parse_env, parse_cli.
  destruct (env_loop env env_keys []) as [m| | |] eqn:EL.
  2,3,4: split; [discriminate|]; intros [_ C];
    (assert (X : forall k, In k env_keys -> env k <> NotUnicode);
      [intros key I; apply env_keys_names in I as [o ->]; destruct C as [ps E _ _ _|vals _ E _|f t d E _ _ _ _];
        [rewrite (E o); discriminate|specialize (E o); destruct (env (env_name o)); [discriminate|contradiction|discriminate]|rewrite (E o); discriminate]
      |destruct (env_loop_total env env_keys [] X) as [m' X']; congruence]).
  cbn [cbind]. destruct (forallb utf8 argv) eqn:U; cbn [negb]; [|split; [discriminate|intros [X _]; discriminate X]].
  match goal with |- ?X <-> _ => enough (IE : X <-> configured files yaml argv env c) by (rewrite IE; split; [auto|intros [_ Y]; exact Y]) end.
  pose proof (env_ok _ _ EL) as (EU & EG & EK & EF). pose proof (env_nil _ _ EL) as EN.
  assert (ENV : (match m with [] => None | _ => Some m end) = None <-> env_empty env) by (rewrite <- EN; destruct m; split; intros; congruence).
  assert (CE : forall vals, env_has env vals -> settled files vals c -> ~ env_empty env).
  { intros vals H [(p & RT & _) _ _ _ _] N. specialize (H ORoot). rewrite (N ORoot) in H. congruence. }
  assert (BADCLI : (forall ps, ~ cmdline (tl argv) ps) -> ~ configured files yaml argv env c).
  { intros NC [ps _ C _ _|vals E _ _|f t d _ C _ _ _]; [eapply NC; eassumption| |eapply NC; eassumption]. apply (NC []). rewrite E. constructor. }
  assert (CM : forall ps, cmdline (tl argv) ps -> cli_loop (tl argv) [] = COk (match pushes ps [] with [] => ClDefault | x => ClArgs x end)).
  { intros ps C. pose proof (cmdline_run _ _ C [] []) as R. rewrite app_nil_r in R. rewrite R. cbn [cli_loop]. destruct (pushes ps []); reflexivity. }
  destruct (cli_loop (tl argv) []) as [r|s k| |] eqn:CL.
  2,3,4: split; [discriminate|]; intros X; exfalso; revert X; apply BADCLI; intros ps C; specialize (CM _ C); congruence.
  cbn [cbind]. destruct r as [| | |m'].
  - apply cli_iff in CL as [T _]. split.
    + destruct m as [|e m0]; [discriminate|]. intros A. pose proof A as A'. apply (apply_iff _ _ env_names_ok _ c EF) in A' as [_ S].
      eapply by_env; [exact T|apply (env_has_of _ _ EL)|exact S].
    + intros [ps E C F S|vals E H S|f t d E C F Y S].
      * rewrite T in C. inversion C; subst. destruct S as [(p & RT & _) _ _ _ _]. discriminate RT.
      * destruct m as [|e m0] eqn:M; [destruct (CE _ H S); apply EN; reflexivity|]. apply (apply_iff _ _ env_names_ok _ c EF). split; [exact EK|].
        eapply settled_ext; [|exact S]. intros o. symmetry. apply (env_has_vals _ _ _ EL H).
      * rewrite T in C. inversion C.
  - split; [discriminate|]. intros X. exfalso. revert X. apply BADCLI. intros ps C. specialize (CM _ C). destruct (pushes ps []); discriminate CM.
  - split; [discriminate|]. intros X. exfalso. revert X. apply BADCLI. intros ps C. specialize (CM _ C). destruct (pushes ps []); discriminate CM.
  - apply cli_iff in CL as (ps & C & -> & NE).
    assert (NT : tl argv <> []) by (intros T; rewrite T in C; inversion C; subst; apply NE; reflexivity).
    destruct (rget arg_config (pushes ps [])) as [v|] eqn:RC.
    + split.
      * destruct m as [|e m0]; [|unfold check_file; destruct (pushes ps []) as [|? [|? ?]]; discriminate].
        intros X. apply (file_iff files yaml ps c v RC) in X as (f & t & d & -> & F & Y & S). eapply by_file; eauto. apply EN. reflexivity.
      * intros [ps' E C' F S|vals E H S|f t d E C' F Y S].
        -- exfalso. rewrite (cmdline_fun _ _ C _ C') in RC. rewrite <- known_pairs in F. destruct (F _ _ RC) as [o Q]. rewrite cli_name_name in Q.
           exact (config_not_name o Q).
        -- congruence.
        -- apply EN in E. subst m. rewrite (cmdline_fun _ _ C _ C') in *. apply (file_iff files yaml _ c v RC). exists f, t, d. auto.
    + split.
      * destruct m as [|e m0]; [|discriminate]. intros X. apply (apply_iff _ _ cli_names_ok _ c (pushes_filled ps)) in X as [K S].
        eapply by_cli; [apply EN; reflexivity|exact C|apply known_pairs; exact K|]. eapply settled_ext; [|exact S]. intros o. apply vals_pushes.
      * intros [ps' E C' F S|vals E H S|f t d E C' F Y S].
        -- apply EN in E. subst m. rewrite (cmdline_fun _ _ C _ C'). apply (apply_iff _ _ cli_names_ok _ c (pushes_filled ps')).
           split; [apply known_pairs; exact F|]. eapply settled_ext; [|exact S]. intros o. symmetry. apply vals_pushes.
        -- congruence.
        -- rewrite (cmdline_fun _ _ C _ C') in RC. discriminate RC.
Qed.

(** ** No panic once the arguments are text *)
Lemma argck_np cs v k : argck_dup cs v k <> CPanic. Proof. destruct v as [|x [|y v]]; discriminate. Qed.
Lemma bind_np {A B} (x : cres A) (f : A -> cres B) : x <> CPanic -> (forall a, x = COk a -> f a <> CPanic) -> cbind x f <> CPanic.
Proof. intros H G. destruct x; cbn [cbind]; try congruence. apply G. reflexivity. Qed.
Lemma first_np cs v k : argck_dup cs v k = COk tt -> exists x, first v = COk x.
Proof. destruct v as [|x [|y v]]; try discriminate. intros _. exists x. reflexivity. Qed.
Lemma unit_tt (u : unit) : u = tt. Proof. destruct u. reflexivity. Qed.
Lemma read_np files p : read_file files p <> CPanic. Proof. unfold read_file. destruct (files p); discriminate. Qed.
Lemma tls_np files cs m h p : arg_decode_tls files cs m h p <> CPanic.
Proof.
  unfold arg_decode_tls. destruct (rget (n_cert cs) m) as [c|]; [|discriminate]. destruct (rget (n_key cs) _) as [k|]; [|discriminate]. destruct (rget (n_pkp cs) _) as [q|]; [|discriminate].
  apply bind_np; [apply argck_np|]. intros [] H1. apply bind_np; [apply argck_np|]. intros [] H2. apply bind_np; [apply argck_np|]. intros [] H3.
  destruct (first_np _ _ _ H1) as [x ->], (first_np _ _ _ H2) as [y ->], (first_np _ _ _ H3) as [z ->]. cbn [cbind]. unfold decode_tls_ep.
  apply bind_np; [|discriminate]. repeat (apply bind_np; [apply read_np|]; intros ? _). discriminate.
Qed.
Lemma auth_np cs m d : arg_decode_auth cs m d <> CPanic.
Proof.
  unfold arg_decode_auth. destruct (rget (n_root cs) _) as [r|]; [|discriminate]. apply bind_np.
  - destruct (rget (n_driver cs) m); [apply argck_np|discriminate].
  - intros [] H1. apply bind_np; [apply argck_np|]. intros [] H2. destruct (first_np _ _ _ H2) as [x ->]. apply bind_np; [|discriminate].
    destruct (rget (n_driver cs) m); [|discriminate]. destruct (first_np _ _ _ H1) as [y ->]. cbn [cbind]. destruct (beqb y _); discriminate.
Qed.
Lemma loop_np files cs eps : forall m i s, endpoints_loop files cs eps m i s <> CPanic.
Proof.
  induction eps as [|e eps IH]; intros m i s; cbn [endpoints_loop]; [discriminate|]. apply bind_np.
  - unfold parse_endpoint. destruct (split_on x40 e) as [|? [|hp [|? ?]]]; try discriminate. destruct (split_on x3a hp) as [|? [|q [|? ?]]]; try discriminate.
    destruct (parse_uint u16_max q); [|discriminate]. destruct (beqb _ _); [discriminate|]. destruct (beqb _ _); discriminate.
  - intros [[pr h] p] _. destruct pr.
    + destruct i; [discriminate|]. apply IH.
    + destruct i, s; try discriminate; (apply bind_np; [apply tls_np|intros [? ?] _; apply IH]).
Qed.
Lemma simple_np cs k f m d : (forall v d, f cs v d <> CPanic) -> simple cs k f m d <> CPanic.
Proof. intros H. unfold simple. destruct (rget k m); [|discriminate]. apply bind_np; [apply H|discriminate]. Qed.
Lemma mode_np cs v d : arg_decode_mode cs v d <> CPanic.
Proof.
  unfold arg_decode_mode. apply bind_np; [apply argck_np|]. intros [] H. destruct (first_np _ _ _ H) as [x ->]. cbn [cbind].
  apply bind_np; [|discriminate]. destruct (beqb _ _); [discriminate|]. destruct (beqb _ _); discriminate.
Qed.
Lemma window_np cs v d : arg_decode_window cs v d <> CPanic.
Proof.
  unfold arg_decode_window. apply bind_np; [apply argck_np|]. intros [] H. destruct (first_np _ _ _ H) as [x ->]. cbn [cbind].
  destruct (parse_uint _ _); discriminate.
Qed.
Lemma endpoints_np files cs m d : arg_decode_endpoints files cs m d <> CPanic.
Proof.
  unfold arg_decode_endpoints. destruct (rget (n_ep cs) m) as [eps|]; [|discriminate].
  assert (L : cbind (endpoints_loop files cs eps (rdel (n_ep cs) m) None None) (fun '(args, (secure, insecure)) =>
    match secure, insecure with None, None => COk (args, d) | _, _ => COk (args, mk_decoded (k_system d) (Some (secure, insecure)) (k_auth d)) end) <> CPanic).
  { apply bind_np; [apply loop_np|]. intros [args [[s|] [i|]]] _; discriminate. }
  destruct eps as [|a [|b [|? ?]]]; try exact L. discriminate.
Qed.
Lemma validate_np sc d : validate sc d <> CPanic.
Proof. unfold validate. destruct (k_auth d); [|discriminate]. destruct (_ =? _); [discriminate|]. destruct (_ <? _); discriminate. Qed.
Lemma apply_np files cs m : apply_and_validate files cs m <> CPanic.
Proof.
  unfold apply_and_validate, apply_changes. apply bind_np.
  - apply bind_np; [apply auth_np|]. intros [? ?] _. apply bind_np; [apply simple_np, mode_np|]. intros [? ?] _. apply bind_np; [apply simple_np, window_np|].
    intros [? ?] _. apply bind_np; [apply endpoints_np|]. intros [a ?] _. destruct a; discriminate.
  - intros d _. apply bind_np; [apply validate_np|discriminate].
Qed.
Lemma file_np files yaml m e v : v <> [] -> check_file files yaml m e v <> CPanic.
Proof.
  intros NE. unfold check_file. destruct m as [|x [|y m]]; try discriminate. destruct e; [discriminate|].
  apply bind_np; [apply argck_np|]. intros [] H. destruct (first_np _ _ _ H) as [f ->]. cbn [cbind]. apply bind_np; [apply read_np|].
  intros t _. destruct (yaml t) as [d|]; [|discriminate]. apply bind_np.
  - destruct (k_endpoints d) as [[[s|] i]|]; try discriminate. repeat (apply bind_np; [apply read_np|]; intros ? _). discriminate.
  - intros d' _. apply bind_np; [apply validate_np|discriminate].
Qed.
Lemma env_loop_bad env keys : forall m, (exists k, In k keys /\ env k = NotUnicode) -> exists k, env_loop env keys m = CErr (Some SEnv) (EEnvValue k).
Proof.
  induction keys as [|x keys IH]; intros m (k & I & E); [destruct I|]. cbn [env_loop]. destruct (env x) as [| |v] eqn:EX.
  - destruct I as [->|I]; [congruence|]. apply IH. eauto.
  - eauto.
  - destruct I as [->|I]; [congruence|]. apply IH. eauto.
Qed.
Lemma env_loop_cases env : (exists m, env_loop env env_keys [] = COk m) /\ (forall o, env (env_name o) <> NotUnicode) \/
  (exists k, env_loop env env_keys [] = CErr (Some SEnv) (EEnvValue k)) /\ (exists o, env (env_name o) = NotUnicode).
Proof.
  assert (D : (exists o, env (env_name o) = NotUnicode) \/ (forall o, env (env_name o) <> NotUnicode)).
  { assert (X : forall l : list opt, (exists o, env (env_name o) = NotUnicode) \/ (forall o, In o l -> env (env_name o) <> NotUnicode)).
    { induction l as [|o l [H|H]]; [right; intros ? []|left; exact H|]. destruct (env (env_name o)) eqn:E; [|left; eauto|]; right; intros o' [<-|I]; try congruence; auto. }
    destruct (X all_opts) as [H|H]; [left; exact H|right; intros o; apply H; destruct o; unfold all_opts; cbn [In]; tauto]. }
  destruct D as [[o E]|H].
  - right. split; [apply env_loop_bad; exists (env_name o); split; [apply env_keys_names; eauto|exact E]|eauto].
  - left. split; [|exact H]. apply env_loop_total. intros k I. apply env_keys_names in I as [o ->]. apply H.
Qed.
Theorem panic_iff files yaml utf8 argv env :
  check files yaml utf8 argv env = CPanic <-> (forall o, env (env_name o) <> NotUnicode) /\ forallb utf8 argv = false.
Proof.
  unfold check, parse_env. destruct (env_loop_cases env) as [[[m ->] H]|[[k ->] [o H]]]; cbn [cbind].
  2:{ split; [discriminate|]. intros [X _]. destruct (X o H). }
  destruct (forallb utf8 argv); cbn [negb].
  2:{ split; [auto|reflexivity]. }
  split; [|intros [_ X]; discriminate X]. intros E. exfalso. revert E. apply bind_np; [apply (cli_no_panic _ (tl argv) [] (le_n _))|].
  intros r E. destruct r as [| | |m']; try discriminate.
  - destruct m; [discriminate|apply apply_np].
  - apply cli_iff in E as (ps & C & -> & NE). destruct (rget arg_config (pushes ps [])) as [v|] eqn:R.
    + apply file_np. intros ->. exact (pushes_filled ps _ R).
    + destruct m; [apply apply_np|discriminate].
Qed.
Lemma apply_cfg files cs m r : apply_and_validate files cs m = COk r -> exists c, r = RConfig c.
Proof.
  unfold apply_and_validate. destruct (apply_changes files cs m) as [d| | |]; try discriminate. cbn [cbind]. destruct (validate (n_src cs) d) as [c| | |]; try discriminate.
  cbn [cbind]. intros H. injection H as <-. eauto.
Qed.
Lemma file_cfg files yaml m e v r : check_file files yaml m e v = COk r -> exists c, r = RConfig c.
Proof.
  unfold check_file. destruct m as [|x [|y m]]; try discriminate. destruct e; [discriminate|]. destruct (argck_dup src_cli v arg_config); try discriminate. cbn [cbind].
  destruct (first v) as [f| | |]; try discriminate. cbn [cbind]. destruct (read_file files f) as [t| | |]; try discriminate. cbn [cbind]. destruct (yaml t) as [d|]; [|discriminate].
  match goal with |- cbind ?X _ = _ -> _ => destruct X as [d'| | |]; try discriminate end. cbn [cbind].
  destruct (validate SFile d') as [c| | |]; try discriminate. cbn [cbind]. intros H. injection H as <-. eauto.
Qed.
Theorem flag_iff files yaml utf8 argv env r (V : r = RHelp \/ r = RVersion) :
  check files yaml utf8 argv env = COk r <->
  (forall o, env (env_name o) <> NotUnicode) /\ forallb utf8 argv = true /\
  exists pre ps h rest, tl argv = pre ++ h :: rest /\ cmdline pre ps /\ (match r with RHelp => is_help h | _ => is_version h end).
Proof.
  unfold check, parse_env. destruct (env_loop_cases env) as [[[m ->] H]|[[k ->] [o H]]]; cbn [cbind].
  2:{ split; [discriminate|]. intros [X _]. destruct (X o H). }
  destruct (forallb utf8 argv); cbn [negb]; [|split; [discriminate|intros (_ & X & _); discriminate X]].
  unfold parse_cli. split.
  - destruct (cli_loop (tl argv) []) as [q| | |] eqn:CL; try discriminate. cbn [cbind]. intros E. split; [exact H|]. split; [reflexivity|].
    apply cli_iff in CL. destruct q as [| | |m'].
    + exfalso. destruct m; [discriminate E|]. apply apply_cfg in E as [c ->]. destruct V; discriminate.
    + injection E as <-. exact CL.
    + injection E as <-. exact CL.
    + exfalso. destruct (rget arg_config m').
      * apply file_cfg in E as [c ->]. destruct V; discriminate.
      * destruct m; [|discriminate E]. apply apply_cfg in E as [c ->]. destruct V; discriminate.
  - intros (_ & _ & X). destruct V as [-> | ->].
    + rewrite (proj2 (cli_iff (tl argv) ClHelp) X). reflexivity.
    + rewrite (proj2 (cli_iff (tl argv) ClVersion) X). reflexivity.
Qed.
