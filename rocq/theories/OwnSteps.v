(** Each operation keeps the invariant *)
From Coq Require Import List NArith Bool Arith Lia.
From Verif Require Import Bytes OwnModel OwnSpec OwnProofs.
Import ListNotations.

Definition good (t : ast) (o : op) (r : R (st * option seen)) : Prop :=
  match r with
  | Ok (s', out) => exists t' kf', astep t o = Some (t', out) /\ inv s' t' kf' [] []
  | Bad => True
  | UB => False
  end.
Lemma use_nub s v : use s v <> UB.
Proof. unfold use. destruct (nth_error (env s) v) as [[b|]|]; intros D; discriminate D. Qed.
Lemma move_nub s v : move s v <> UB.
Proof. unfold move. pose proof (use_nub s v). destruct (use s v); [|intros D; discriminate D|congruence]. destruct (unborrowed s v); intros D; discriminate D. Qed.
Lemma st_eta s : mk_st (mm s) (env s) (objs s) = s.
Proof. destruct s; reflexivity. Qed.

Lemma give_good s t t0 o kf m x l y : inv (mk_st m (env s) (objs s)) t kf (fpv x) (hold x) -> show m x = Ok y -> fullv m x ->
  (forall h, x = VRow h -> h_key h = kf (h_id h)) ->
  (forall u, In u l -> u < length (env s) /\ exists b, nth_error (env s) u = Some (Some b)) -> (forall a, In a (bpv x) -> exists u, In u l /\ lender (env s) a u) ->
  astep t0 o = Some (plus t y, None) -> good t0 o (give s m x l).
Proof.
  intros I S F R LL B A. destruct (push_ok (mk_st m (env s) (objs s)) t kf [] [] x l y m) as (s' & E & -> & I'); auto.
  { rewrite !app_nil_r. exact I. }
  unfold give, good. cbn [env objs mm] in *. eauto.
Qed.
Lemma give_good0 s t t0 o kf m x y : inv (mk_st m (env s) (objs s)) t kf (fpv x) [] -> show m x = Ok y -> fullv m x -> hold x = [] -> bpv x = [] ->
  astep t0 o = Some (plus t y, None) -> good t0 o (give s m x []).
Proof.
  intros I S F HO B A. eapply give_good; eauto.
  - rewrite HO. exact I.
  - intros h ->. discriminate HO.
  - intros u [].
  - rewrite B. intros a [].
Qed.
Lemma done_good s t t0 o kf m : inv (mk_st m (env s) (objs s)) t kf [] [] -> astep t0 o = Some (t, None) -> good t0 o (done s m).
Proof. intros I A. unfold done, good. eauto. Qed.

Lemma show_box m w y : show m (VBox w) = Ok y -> exists b, read m w = Ok b /\ y = ABox b.
Proof. cbn [show]. destruct (read m w) as [b| |]; intros E; try discriminate E. injection E as <-. eauto. Qed.
Lemma show_slice m w y : show m (VSlice w) = Ok y -> exists b, read m w = Ok b /\ y = ASlice b.
Proof. cbn [show]. destruct (read m w) as [b| |]; intros E; try discriminate E. injection E as <-. eauto. Qed.
Lemma show_lit m a y : show m (VLit a) = Ok y -> exists x, read_word m (l_cls a) (l_word a) = Ok x /\ y = ALit x.
Proof. cbn [show]. destruct (read_word _ _ _) as [b| |]; intros E; try discriminate E. injection E as <-. eauto. Qed.
Lemma show_cell m a y : show m (VCell a) = Ok y -> exists x, read_cell m a = Ok x /\ y = ACell x.
Proof. cbn [show]. destruct (read_cell _ _) as [b| |]; intros E; try discriminate E. injection E as <-. eauto. Qed.
Lemma show_cells m a y : show m (VCells a) = Ok y -> exists x, read_cells m a = Ok x /\ y = ACells x.
Proof. cbn [show]. destruct (read_cells _ _) as [b| |]; intros E; try discriminate E. injection E as <-. eauto. Qed.
Lemma show_key m a y : show m (VKey a) = Ok y -> exists x, read_word m (k_cls a) (k_word a) = Ok x /\ y = AKey x.
Proof. cbn [show]. destruct (read_word _ _ _) as [b| |]; intros E; try discriminate E. injection E as <-. eauto. Qed.
Lemma show_virt m a y : show m (VVirt a) = Ok y -> exists x, read_cell m a = Ok x /\ y = AVirt x.
Proof. cbn [show]. destruct (read_cell _ _) as [b| |]; intros E; try discriminate E. injection E as <-. eauto. Qed.
Lemma read_word_wide m c w b : wide c = true -> read m w = Ok b -> read_word m c w = Ok (SBytes c b).
Proof. unfold read_word. intros -> ->. reflexivity. Qed.
Lemma read_word_wide_inv m c w x : wide c = true -> read_word m c w = Ok x -> exists b, read m w = Ok b /\ x = SBytes c b.
Proof. unfold read_word. intros ->. destruct (read m w) as [b| |]; intros E; try discriminate E. injection E as <-. eauto. Qed.
Lemma read_word_thin m c w : wide c = false -> read_word m c w = Ok (SNum c (fst w)).
Proof. unfold read_word. intros ->. reflexivity. Qed.

Tactic Notation "usev" constr(I) ident(x) ident(l) ident(N) ident(Y) ident(S) ident(F) :=
  match goal with
  | |- context [use ?s ?v] =>
    let U := fresh "U" in destruct (use s v) as [[x l]| |] eqn:U; [|intros; exact Logic.I|destruct (use_nub s v U)];
    destruct (use_ok _ _ _ _ _ _ _ _ I U) as (N & ? & Y & S & F)
  end.
Tactic Notation "movev" constr(I) ident(x) ident(l) ident(s1) ident(N) ident(Y) ident(S) ident(F) ident(I1) :=
  match goal with
  | |- context [move ?s ?v] =>
    let U := fresh "U" in let E := fresh "E" in destruct (move s v) as [[[x l] s1]| |] eqn:U; [|intros; exact Logic.I|destruct (move_nub s v U)];
    destruct (move_ok _ _ _ _ _ _ _ _ _ I U) as (N & E & (? & Y & S) & F & I1 & ? & ?); subst s1
  end.

(** The variables another value is borrowed from *)
Lemma lends_old s t kf L H v x l : inv s t kf L H -> nth_error (env s) v = Some (Some (x, l)) ->
  forall u, In u l -> u < length (env s) /\ exists b, nth_error (env s) u = Some (Some b).
Proof. intros I N u J. destruct (v_lend _ _ _ _ _ I _ _ _ _ N J) as (LT & b & B). split; [eapply nth_lt; exact B|eauto]. Qed.
Lemma lends_new s t kf L H v x l : inv s t kf L H -> nth_error (env s) v = Some (Some (x, l)) ->
  forall u, In u (v :: l) -> u < length (env s) /\ exists b, nth_error (env s) u = Some (Some b).
Proof. intros I N u [<-|J]; [split; [eapply nth_lt; exact N|eauto]|eapply lends_old; eauto]. Qed.
Lemma addr0 w : fst w = 0%N -> addr w = [].
Proof. unfold addr. intros ->. reflexivity. Qed.
Lemma read0 m w : fst w = 0%N -> read m w = Ok [].
Proof. unfold read. intros ->. reflexivity. Qed.
Lemma addr_off n p i k : (N.of_nat (i + k) <= n)%N -> incl (addr (N.of_nat k, match p with PAt a o => PAt a (o + i) | _ => p end)) (addr (n, p)).
Proof.
  unfold addr. cbn [fst snd]. intros LE a. destruct (N.of_nat k) eqn:K; [intros []|]. destruct n; [lia|]. destruct p; auto.
Qed.
Lemma read_off m n p i k b : read m (n, p) = Ok b -> n = N.of_nat (length b) -> full m (n, p) -> i + k <= length b ->
  read m (N.of_nat k, match p with PAt a o => PAt a (o + i) | _ => p end) = Ok (firstn k (skipn i b)).
Proof.
  unfold read, full. cbn [fst snd]. intros R LN F LE. destruct (N.of_nat k) as [|q] eqn:K.
  { replace k with 0 by lia. reflexivity. }
  destruct n as [|n]; [lia|]. destruct F as [Z|(a & bs & -> & E & L)]; [discriminate Z|]. rewrite E in R. rewrite E. cbn [Nat.add skipn] in R.
  destruct (_ <=? _)%N in R; [|discriminate R]. assert (R' : firstn (N.to_nat (N.pos n)) bs = b) by congruence. rewrite L, Nnat.Nat2N.id, firstn_all in R'. subst bs. cbn [Nat.add].
  replace (N.pos q <=? N.of_nat (length b - i))%N with true by (symmetry; apply N.leb_le; lia).
  rewrite <- K, Nnat.Nat2N.id. reflexivity.
Qed.

Section Steps.
  Variables (s : st) (t : ast) (kf : nat -> key).
  Hypothesis I : inv s t kf [] [].

  Lemma g_newbox bs : good t (NewBox bs) (step s (NewBox bs)).
  Proof using I.
    cbn [step]. destruct (alloc (mm s) bs) as [m w] eqn:A. destruct (alloc_ok _ _ _ _ _ _ _ _ I A) as (I1 & R & F & _).
    rewrite app_nil_r in I1. eapply give_good0; [exact I1| |exact F|reflexivity|reflexivity|reflexivity]. cbn [show]. rewrite R. reflexivity.
  Qed.
  Lemma g_slice v i n : good t (Slice v i n) (step s (Slice v i n)).
  Proof using I.
    cbn [step]. usev I x l N Y S F. destruct x as [[len p]|w|a|c|cs|k|c|h]; try exact Logic.I.
    destruct (show_box _ _ _ S) as (b & R & ->). cbn [fullv] in F. destruct (full_read _ _ F) as (b' & R' & LN). rewrite R in R'. injection R' as <-. cbn [fst] in LN.
    destruct (N.leb_spec (N.of_nat (i + n)) len) as [LE|]; [|exact Logic.I].
    eapply give_good with (kf := kf) (t := t).
    - rewrite st_eta. exact I.
    - cbn [show]. erewrite read_off; [reflexivity|eassumption..|lia].
    - exact Logic.I.
    - intros h D. discriminate D.
    - intros u [<-|[]]. split; [eapply nth_lt; exact N|eauto].
    - cbn [bpv]. intros a J. exists v. split; [left; reflexivity|]. exists (VBox (len, p)), l. split; [exact N|]. left. cbn [fpv]. eapply addr_off; eassumption.
    - cbn [astep]. rewrite Y. replace (i + n <=? length b) with true by (symmetry; apply Nat.leb_le; lia). reflexivity.
  Qed.
  Lemma g_litnum c q : good t (LitNum c q) (step s (LitNum c q)).
  Proof using I.
    cbn [step]. destruct c; try exact Logic.I;
    (eapply give_good0; [rewrite st_eta; exact I|reflexivity|intros D; discriminate D|reflexivity|reflexivity|reflexivity]).
  Qed.
  Lemma g_litref c v : good t (LitRef c v) (step s (LitRef c v)).
  Proof using I.
    cbn [step]. usev I x l N Y S F. destruct x as [w|w|a|c'|cs|k|c'|h]; try exact Logic.I. destruct (wide c) eqn:W; [|exact Logic.I].
    destruct (show_slice _ _ _ S) as (b & R & ->).
    eapply give_good with (kf := kf) (t := t).
    - rewrite st_eta. exact I.
    - cbn [show l_cls l_word]. rewrite (read_word_wide _ _ _ _ W R). reflexivity.
    - intros D. discriminate D.
    - intros h D. discriminate D.
    - eapply lends_old; eauto.
    - cbn [bpv l_heap l_cls l_word]. rewrite W. intros a J. eapply v_bor; eauto.
    - cbn [astep]. rewrite Y, W. reflexivity.
  Qed.
  Lemma g_litbox v : good t (LitBox v) (step s (LitBox v)).
  Proof using I.
    cbn [step]. movev I x l s1 N Y S F I1. destruct x as [w|w|a|c'|cs|k|c'|h]; try exact Logic.I. destruct (show_box _ _ _ S) as (b & R & ->).
    rewrite app_nil_r in I1. eapply give_good0 with (kf := kf) (t := without t v); try reflexivity.
    - exact I1.
    - cbn [show l_cls l_word]. rewrite (read_word_wide _ Str _ _ eq_refl R). reflexivity.
    - intros _. split; [exact F|reflexivity].
    - cbn [astep]. rewrite Y. reflexivity.
  Qed.
  Lemma g_asir v : good t (AsIr v) (step s (AsIr v)).
  Proof using I.
    cbn [step]. usev I x l N Y S F. destruct x as [w|w|a|c'|cs|k|c'|h]; try exact Logic.I. destruct (show_lit _ _ _ S) as (b & R & ->).
    eapply give_good with (kf := kf) (t := t).
    - rewrite st_eta. exact I.
    - cbn [show l_cls l_word]. rewrite R. reflexivity.
    - intros D. discriminate D.
    - intros h D. discriminate D.
    - eapply lends_new; eauto.
    - cbn [bpv l_heap l_cls l_word]. destruct (wide (l_cls a)) eqn:W; [|intros ? []]. intros p J. destruct (l_heap a) eqn:HP.
      + exists v. split; [left; reflexivity|]. exists (VLit a), l. split; [exact N|]. left. cbn [fpv]. rewrite HP. exact J.
      + destruct (v_bor _ _ _ _ _ I _ _ _ p N) as (u & U' & K); [cbn [bpv]; rewrite HP, W; exact J|]. exists u. split; [right; exact U'|exact K].
    - cbn [astep]. rewrite Y. reflexivity.
  Qed.
  Lemma g_litclone v : good t (LitClone v) (step s (LitClone v)).
  Proof using I.
    cbn [step]. usev I x l N Y S F. destruct x as [w|w|a|c'|cs|k|c'|h]; try exact Logic.I. destruct (show_lit _ _ _ S) as (b & R & ->).
    destruct (l_heap a) eqn:HP.
    - cbn [fullv] in F. destruct (F HP) as [F1 W]. destruct (read_word_wide_inv _ _ _ _ W R) as (bs & R1 & ->). rewrite R1.
      destruct (full_read _ _ F1) as (b' & R' & LN). rewrite R1 in R'. injection R' as <-.
      destruct (alloc (mm s) bs) as [m w] eqn:A. destruct (alloc_ok _ _ _ _ _ _ _ _ I A) as (I1 & R2 & F2 & LW & _). rewrite app_nil_r in I1.
      assert (EW : (fst (l_word a), snd w) = w) by (rewrite LN, <- LW; symmetry; apply surjective_pairing). rewrite EW.
      eapply give_good with (kf := kf) (t := t).
      + exact I1.
      + cbn [show l_cls l_word]. rewrite (read_word_wide _ _ _ _ W R2). reflexivity.
      + intros _. auto.
      + intros h D. discriminate D.
      + eapply lends_old; eauto.
      + intros p [].
      + cbn [astep]. rewrite Y. reflexivity.
    - eapply give_good with (kf := kf) (t := t).
      + cbn [fpv hold]. rewrite HP. rewrite st_eta. exact I.
      + exact S.
      + exact F.
      + intros h D. discriminate D.
      + eapply lends_old; eauto.
      + intros p J. eapply v_bor; eauto.
      + cbn [astep]. rewrite Y. reflexivity.
  Qed.
  Lemma g_litslice v : careful s (LitSlice v) = true -> good t (LitSlice v) (step s (LitSlice v)).
  Proof using I.
    cbn [step careful]. usev I x l N Y S F. destruct x as [w|w|a|c'|cs|k|c'|h]; try (intros _; exact Logic.I). destruct (show_lit _ _ _ S) as (b & R & ->).
    intros C. destruct (wide (l_cls a)) eqn:W; [|exact Logic.I]. destruct (read_word_wide_inv _ _ _ _ W R) as (bs & R1 & ->).
    eapply give_good with (kf := kf) (t := t).
    - rewrite st_eta. exact I.
    - cbn [show]. rewrite R1. reflexivity.
    - exact Logic.I.
    - intros h D. discriminate D.
    - eapply lends_old; eauto.
    - cbn [bpv]. intros p J. destruct (l_heap a) eqn:HP; cbn [negb orb] in C.
      + apply N.eqb_eq in C. rewrite (addr0 _ C) in J. destruct J.
      + eapply v_bor; eauto. cbn [bpv]. rewrite HP, W. exact J.
    - cbn [astep]. rewrite Y. reflexivity.
  Qed.
  Lemma g_cellnum c q : good t (CellNum c q) (step s (CellNum c q)).
  Proof using I.
    cbn [step]. destruct c; try exact Logic.I;
    (eapply give_good0; [rewrite st_eta; exact I|reflexivity|intros D; discriminate D|reflexivity|reflexivity|reflexivity]).
  Qed.
  Lemma g_cellnull : good t CellNull (step s CellNull).
  Proof using I. cbn [step]. eapply give_good0; [rewrite st_eta; exact I|reflexivity|intros D; discriminate D|reflexivity|reflexivity|reflexivity]. Qed.
  Lemma g_cellbox c v : good t (CellBox c v) (step s (CellBox c v)).
  Proof using I.
    cbn [step]. movev I x l s1 N Y S F I1. destruct x as [w|w|a|c'|cs|k|c'|h]; try exact Logic.I. destruct (show_box _ _ _ S) as (b & R & ->).
    destruct (wide c) eqn:W; [|exact Logic.I].
    rewrite app_nil_r in I1. eapply give_good0 with (kf := kf) (t := without t v); try reflexivity.
    - cbn [fpv fpc]. rewrite W. exact I1.
    - cbn [show read_cell]. rewrite (read_word_wide _ _ _ _ W R). reflexivity.
    - intros _. split; [exact F|reflexivity].
    - cbn [astep]. rewrite Y, W. reflexivity.
  Qed.
  Lemma g_celllit v : good t (CellLit v) (step s (CellLit v)).
  Proof using I.
    cbn [step]. movev I x l s1 N Y S F I1. destruct x as [w|w|a|c'|cs|k|c'|h]; try exact Logic.I. destruct (show_lit _ _ _ S) as (b & R & ->).
    destruct (wide (l_cls a)) eqn:W.
    - destruct (read_word_wide_inv _ _ _ _ W R) as (bs & R1 & ->). rewrite R1. destruct (alloc (mm s) bs) as [m w] eqn:A.
      destruct (alloc_ok _ _ _ _ _ _ _ _ I1 A) as (I2 & R2 & F2 & LW & G & FR). cbn [mm env objs hold app] in *.
      assert (I3 : inv (mk_st m (set (env s) v None) (objs s)) (without t v) kf (fpv (VLit a) ++ addr w) []).
      { eapply inv_perm; [|exact I2]. intros p. rewrite app_nil_r, !cnt_app. lia. }
      destruct (drop_lit_ok a _ _ _ _ _ I3) as (m2 & E2 & I4 & S2).
      { cbn [mm]. eapply fullv_same; [|exact F]. intros p J. apply G. destruct (Nat.lt_ge_cases p (length (mm s))) as [|GE]; [assumption|].
        pose proof (all _ _ _ _ _ I1 p) as T. cbn [mm env objs hold app] in T. rewrite app_nil_r in T. apply cnt_in in J. unfold live in T. rewrite (proj2 (nth_error_None _ _) GE) in T. lia. }
      cbn [mm env objs] in *. rewrite E2.
      assert (EW : (N.of_nat (length bs), snd w) = w) by (rewrite <- LW; symmetry; apply surjective_pairing). rewrite EW.
      eapply give_good0 with (kf := kf) (t := without t v); try reflexivity.
      + cbn [fpv fpc]. rewrite W. exact I4.
      + cbn [show read_cell]. rewrite (read_word_wide _ _ _ bs W); [reflexivity|]. rewrite (read_same m m2); [exact R2|exact S2].
      + cbn [fullv fullc]. intros _. split; [eapply full_same; [exact S2|exact F2]|reflexivity].
      + cbn [astep]. rewrite Y. reflexivity.
    - destruct (drop_lit_ok a _ _ _ _ _ I1 F) as (m2 & E2 & I4 & S2). cbn [mm env objs] in *. rewrite E2.
      rewrite (read_word_thin _ _ _ W) in R. injection R as <-.
      eapply give_good0 with (kf := kf) (t := without t v); try reflexivity.
      + cbn [fpv fpc]. rewrite W. exact I4.
      + cbn [show read_cell]. rewrite (read_word_thin _ _ _ W). reflexivity.
      + cbn [fullv fullc]. rewrite W. intros D. discriminate D.
      + cbn [astep]. rewrite Y. reflexivity.
  Qed.
  Lemma g_cellinto c v : good t (CellInto c v) (step s (CellInto c v)).
  Proof using I.
    cbn [step]. movev I x l s1 N Y S F I1. destruct x as [w|w|a|y|cs|k|c'|h]; try exact Logic.I. destruct (show_cell _ _ _ S) as (b & R & ->).
    destruct (drop_cell_ok y _ _ _ _ _ I1 F) as (m2 & E2 & I4 & S2). cbn [mm env objs] in *.
    destruct y as [i c' w|cs].
    - destruct (wide c) eqn:W; [|exact Logic.I].
      destruct (match c, c' with Bin, Bin => true | Str, Str => true | _, _ => false end) eqn:Q.
      + assert (EC : c' = c) by (destruct c, c'; try discriminate Q; reflexivity). subst c'.
        destruct (F W) as [F1 ->].
        cbn [read_cell] in R. destruct (read_word_wide_inv _ _ _ _ W R) as (bs & R1 & ->).
        rewrite app_nil_r in I1. cbn [fpv fpc] in I1. rewrite W in I1.
        eapply give_good0 with (kf := kf) (t := without t v); try reflexivity.
        * exact I1.
        * cbn [show]. rewrite R1. reflexivity.
        * exact F1.
        * cbn [astep]. rewrite Y, W. destruct c; try discriminate W; reflexivity.
      + rewrite E2. eapply done_good; [exact I4|]. cbn [astep]. rewrite Y, W. destruct i; cbn [read_cell] in R.
        * destruct (wide c') eqn:W'; [destruct (read_word_wide_inv _ _ _ _ W' R) as (bs & R1 & ->)|rewrite (read_word_thin _ _ _ W') in R; injection R as <-].
          -- destruct c, c'; try discriminate W; try discriminate W'; try discriminate Q; reflexivity.
          -- destruct c; try discriminate W; reflexivity.
        * injection R as <-. destruct c; try discriminate W; reflexivity.
    - destruct (wide c) eqn:W; [|exact Logic.I]. rewrite E2. eapply done_good; [exact I4|]. cbn [astep]. rewrite Y, W.
      rewrite read_list in R. destruct (read_cells (mm s) cs); try discriminate R. injection R as <-. destruct c; try discriminate W; reflexivity.
  Qed.
  Lemma g_newcells : good t NewCells (step s NewCells).
  Proof using I. cbn [step]. eapply give_good0; [rewrite st_eta; exact I|reflexivity|exact Logic.I|reflexivity|reflexivity|reflexivity]. Qed.
  Lemma read_cells_app m l r a b : read_cells m l = Ok a -> read_cells m r = Ok b -> read_cells m (l ++ r) = Ok (a ++ b).
  Proof.
    revert a. induction l as [|x l IH]; intros a; cbn [read_cells app].
    - intros E Q. injection E as <-. exact Q.
    - destruct (read_cell m x) as [c| |]; [|intros D; discriminate D|intros D; discriminate D]. destruct (read_cells m l) as [d| |]; [|intros D; discriminate D|intros D; discriminate D].
      intros E Q. injection E as <-. rewrite (IH d eq_refl Q). reflexivity.
  Qed.
  Lemma g_pushcell v c : good t (PushCell v c) (step s (PushCell v c)).
  Proof using I.
    cbn [step]. movev I x l s1 N Y S F I1. movev I1 y l2 s2 N2 Y2 S2 F2 I2. destruct x as [w|w|a|x|cs|k|x|h]; try exact Logic.I.
    destruct y as [w|w|a|y|cs|k|y|h]; try exact Logic.I. destruct (show_cell _ _ _ S) as (b & R & ->). destruct (show_cells _ _ _ S2) as (bs & R2 & ->).
    cbn [mm env objs hold app] in *. exists (mk_ast (set (vars (without t c)) v (Some (ACells (bs ++ [b])))) (arows t)), kf. split.
    - cbn [astep]. rewrite Y, Y2. reflexivity.
    - apply (inv_perm _ _ _ _ (fpv (VCells (cs ++ [x])) ++ [])) in I2.
      2: { intros p. cbn [fpv]. rewrite fcs_app. cbn [fcs]. rewrite !cnt_app. cbn [count_occ]. lia. }
      pose proof (refill_ok _ _ kf [] [] v (VCells (cs ++ [x])) l2 (ACells (bs ++ [b])) I2) as RF.
      cbn [mm env objs without vars arows] in RF. rewrite !set_set in RF. apply RF; clear RF; try reflexivity.
      + rewrite nth_set. destruct (Nat.eq_dec v v); [|lia]. rewrite N2. reflexivity.
      + cbn [show]. rewrite (read_cells_app _ _ [x] bs [b] R2); [reflexivity|]. cbn [read_cells]. rewrite R. reflexivity.
      + cbn [fullv]. apply fulls_app. split; [exact F2|]. split; [exact F|exact Logic.I].
      + intros u J. destruct (v_lend _ _ _ _ _ I1 _ _ _ _ N2 J) as (LT & bb & B). split; [exact LT|]. exists bb. rewrite nth_set. destruct (Nat.eq_dec v u); [lia|exact B].
  Qed.
  Lemma g_popcell v : good t (PopCell v) (step s (PopCell v)).
  Proof using I.
    cbn [step]. movev I x l s1 N Y S F I1. destruct x as [w|w|a|x|cs|k|x|h]; try exact Logic.I. destruct (show_cells _ _ _ S) as (bs & R & ->).
    destruct cs as [|a cs]; cbn [read_cells] in R.
    - injection R as <-. eapply done_good with (kf := kf) (t := t); [rewrite st_eta; exact I|]. cbn [astep]. rewrite Y. reflexivity.
    - destruct (read_cell (mm s) a) as [b| |] eqn:RA; try discriminate R. destruct (read_cells (mm s) cs) as [bs'| |] eqn:RC; try discriminate R. injection R as <-.
      cbn [hold app fpv fcs] in I1. cbn [fullv fulls] in F. destruct F as [F1 F2].
      exists (plus (mk_ast (set (vars t) v (Some (ACells bs'))) (arows t)) (ACell b)), kf. split; [cbn [astep]; rewrite Y; reflexivity|].
      apply (inv_perm _ _ _ _ (fpv (VCells cs) ++ fpc a)) in I1.
      2: { intros p. cbn [fpv]. rewrite !cnt_app. cbn [count_occ]. lia. }
      pose proof (refill_ok _ _ kf (fpc a) [] v (VCells cs) l (ACells bs') I1) as RF.
      cbn [mm env objs without vars arows] in RF. rewrite !set_set in RF.
      assert (I2 : inv (mk_st (mm s) (set (env s) v (Some (VCells cs, l))) (objs s)) (mk_ast (set (vars t) v (Some (ACells bs'))) (arows t)) kf (fpc a) []).
      { apply RF; clear RF; try reflexivity.
        + rewrite nth_set. destruct (Nat.eq_dec v v); [|lia]. rewrite N. reflexivity.
        + cbn [show]. rewrite RC. reflexivity.
        + exact F2.
        + intros u J. destruct (v_lend _ _ _ _ _ I _ _ _ _ N J) as (LT & bb & B). split; [exact LT|]. exists bb. rewrite nth_set. destruct (Nat.eq_dec v u); [lia|exact B]. }
      apply (inv_perm _ _ _ _ (fpv (VCell a) ++ [])) in I2.
      2: { intros p. cbn [fpv]. rewrite app_nil_r. reflexivity. }
      destruct (push_ok _ _ kf [] [] (VCell a) [] (ACell b) (mm s) I2) as (s' & E & -> & I').
      + reflexivity.
      + cbn [show mm]. rewrite RA. reflexivity.
      + exact F1.
      + intros h D. discriminate D.
      + intros u [].
      + intros p [].
      + exact I'.
  Qed.
  Lemma g_celllist v : good t (CellList v) (step s (CellList v)).
  Proof using I.
    cbn [step]. movev I x l s1 N Y S F I1. destruct x as [w|w|a|x|cs|k|x|h]; try exact Logic.I. destruct (show_cells _ _ _ S) as (bs & R & ->).
    rewrite app_nil_r in I1. eapply give_good0 with (kf := kf) (t := without t v); try reflexivity.
    - cbn [fpv]. rewrite fpc_list. exact I1.
    - cbn [show]. rewrite read_list, R. reflexivity.
    - cbn [fullv]. apply full_list. exact F.
    - cbn [astep]. rewrite Y. reflexivity.
  Qed.
  Lemma g_cellintolist v : good t (CellIntoList v) (step s (CellIntoList v)).
  Proof using I.
    cbn [step]. movev I x l s1 N Y S F I1. destruct x as [w|w|a|x|cs|k|x|h]; try exact Logic.I. destruct (show_cell _ _ _ S) as (b & R & ->).
    destruct x as [i c w|cs].
    - destruct (drop_cell_ok (CWord i c w) _ _ _ _ _ I1 F) as (m2 & E2 & I4 & S2). cbn [mm env objs] in *. rewrite E2.
      eapply done_good; [exact I4|]. cbn [astep]. rewrite Y. cbn [read_cell] in R. destruct i; [|injection R as <-; reflexivity].
      unfold read_word in R. destruct (wide c); [|injection R as <-; reflexivity]. destruct (read (mm s) w); try discriminate R. injection R as <-. reflexivity.
    - rewrite read_list in R. destruct (read_cells (mm s) cs) as [bs| |] eqn:RC; try discriminate R. injection R as <-.
      rewrite app_nil_r in I1. cbn [fpv] in I1. rewrite fpc_list in I1. eapply give_good0 with (kf := kf) (t := without t v); try reflexivity.
      + exact I1.
      + cbn [show]. rewrite RC. reflexivity.
      + cbn [fullv]. apply full_list. exact F.
      + cbn [astep]. rewrite Y. reflexivity.
  Qed.
  Lemma g_keycell v : good t (KeyCell v) (step s (KeyCell v)).
  Proof using I.
    cbn [step]. movev I x l s1 N Y S F I1. destruct x as [w|w|a|x|cs|k|x|h]; try exact Logic.I. destruct (show_cell _ _ _ S) as (b & R & ->).
    destruct x as [[|] c w|cs]; try exact Logic.I. rewrite app_nil_r in I1.
    assert (G : good t (KeyCell v) (give (mk_st (mm s) (set (env s) v None) (objs s)) (mm s) (VKey (mk_key c w)) [])).
    { eapply give_good0 with (kf := kf) (t := without t v); try reflexivity.
      - exact I1.
      - cbn [show k_cls k_word]. cbn [read_cell] in R. rewrite R. reflexivity.
      - cbn [fullv]. intros W. apply F. exact W.
      - cbn [astep]. rewrite Y. reflexivity. }
    destruct c; try exact Logic.I; exact G.
  Qed.
  Lemma g_keynum c q : good t (KeyNum c q) (step s (KeyNum c q)).
  Proof using I.
    cbn [step]. destruct c; try exact Logic.I;
    (eapply give_good0; [rewrite st_eta; exact I|reflexivity|intros D; discriminate D|reflexivity|reflexivity|reflexivity]).
  Qed.
  Lemma g_keybox c v : good t (KeyBox c v) (step s (KeyBox c v)).
  Proof using I.
    cbn [step]. movev I x l s1 N Y S F I1. destruct x as [w|w|a|x|cs|k|x|h]; try exact Logic.I. destruct (show_box _ _ _ S) as (b & R & ->).
    destruct (wide c) eqn:W; [|exact Logic.I].
    rewrite app_nil_r in I1. eapply give_good0 with (kf := kf) (t := without t v); try reflexivity.
    - cbn [fpv]. unfold fpk. cbn [k_cls k_word]. rewrite W. exact I1.
    - cbn [show k_cls k_word]. rewrite (read_word_wide _ _ _ _ W R). reflexivity.
    - intros _. exact F.
    - cbn [astep]. rewrite Y, W. reflexivity.
  Qed.
  Lemma g_keyclone v : careful s (KeyClone v) = true -> good t (KeyClone v) (step s (KeyClone v)).
  Proof using I.
    cbn [step careful]. usev I x l N Y S F. destruct x as [w|w|a|x|cs|k|x|h]; try (intros _; exact Logic.I). destruct (show_key _ _ _ S) as (b & R & ->).
    intros C. apply N.eqb_eq in C. destruct k as [c [n p]]. cbn [k_cls k_word fst] in *. subst n. unfold clone_key. cbn [k_cls k_word].
    assert (G : forall p', good t (KeyClone v) (give s (mm s) (VKey (mk_key c (0%N, p'))) [])).
    { intros p'. eapply give_good0 with (kf := kf) (t := t); try reflexivity.
      - cbn [fpv]. unfold fpk. cbn [k_cls k_word]. replace (if wide c then addr (0%N, p') else []) with (@nil nat) by (destruct (wide c); reflexivity). rewrite st_eta. exact I.
      - cbn [show k_cls k_word]. assert (R' : read_word (mm s) c (0%N, p') = Ok b) by (rewrite <- R; unfold read_word; destruct (wide c); reflexivity). rewrite R'. reflexivity.
      - intros _. left. reflexivity.
      - cbn [astep]. rewrite Y. reflexivity. }
    destruct c; try exact Logic.I; cbn [read fst snd alloc]; apply G.
  Qed.
  Lemma g_virtlit v : careful s (VirtLit v) = true -> good t (VirtLit v) (step s (VirtLit v)).
  Proof using I.
    cbn [step careful]. intros C. movev I x l s1 N Y S F I1. destruct x as [w|w|a|x|cs|k|x|h]; try exact Logic.I. destruct (show_lit _ _ _ S) as (b & R & ->).
    unfold use in C. rewrite N in C.
    destruct (drop_lit_ok a _ _ _ _ _ I1 F) as (m2 & E2 & I4 & S2). cbn [mm env objs] in *. rewrite E2.
    assert (M2 : m2 = mm s).
    { unfold drop_lit in E2. destruct (l_heap a); cbn [negb orb] in C; [|congruence]. apply N.eqb_eq in C. unfold dealloc in E2. rewrite C in E2. congruence. }
    subst m2. eapply give_good with (kf := kf) (t := without t v).
    - exact I4.
    - cbn [show read_cell]. rewrite R. reflexivity.
    - exact Logic.I.
    - intros h D. discriminate D.
    - cbn [env]. rewrite set_len. assumption.
    - cbn [env bpv fpc]. intros p J. destruct (wide (l_cls a)) eqn:W; [|destruct J]. destruct (l_heap a) eqn:HP; cbn [negb orb] in C.
      + apply N.eqb_eq in C. rewrite (addr0 _ C) in J. destruct J.
      + match goal with B : forall a, In a (bpv _) -> _ |- _ => apply B end. cbn [bpv]. rewrite HP, W. exact J.
    - cbn [astep]. rewrite Y. reflexivity.
  Qed.
  Lemma row_read v h l : nth_error (env s) v = Some (Some (VRow h, l)) -> exists r k cs, nth_error (objs s) (h_id h) = Some (Some r) /\ nth_error (arows t) (h_id h) = Some (k, cs) /\
    h_key h = kf (h_id h) /\ read_word (mm s) (k_cls (h_key h)) (k_word (h_key h)) = Ok k /\ read_cells (mm s) (r_cells r) = Ok cs.
  Proof using I.
    intros N. destruct (v_row _ _ _ _ _ I _ _ _ N) as (E & r & R). destruct (o_obj _ _ _ _ _ I _ _ R) as (k & cs & Q & K & C). exists r, k, cs. rewrite E. auto.
  Qed.
  Lemma g_virtkey v : good t (VirtKey v) (step s (VirtKey v)).
  Proof using I.
    cbn [step]. usev I x l N Y S F. destruct x as [w|w|a|x|cs|k|x|h]; try exact Logic.I.
    - destruct (show_key _ _ _ S) as (b & R & ->). eapply give_good with (kf := kf) (t := t).
      + rewrite st_eta. exact I.
      + cbn [show read_cell]. rewrite R. reflexivity.
      + exact Logic.I.
      + intros h D. discriminate D.
      + eapply lends_new; eauto.
      + intros p J. exists v. split; [left; reflexivity|]. exists (VKey k), l. split; [exact N|]. left. exact J.
      + cbn [astep]. rewrite Y. reflexivity.
    - destruct (row_read _ _ _ N) as (r & k & cs & R & Q & KE & RK & RC). cbn [show] in S. injection S as <-. eapply give_good with (kf := kf) (t := t).
      + rewrite st_eta. exact I.
      + cbn [show read_cell]. rewrite RK. reflexivity.
      + exact Logic.I.
      + intros h' D. discriminate D.
      + eapply lends_new; eauto.
      + intros p J. exists v. split; [left; reflexivity|]. exists (VRow h), l. split; [exact N|]. right. exists h. split; [reflexivity|exact J].
      + cbn [astep]. rewrite Y, Q. reflexivity.
  Qed.
  (** *** Cells of a row *)
  Lemma fcs_set l a p : forall i old, nth_error l i = Some old -> cnt (fcs (set l i a)) p + cnt (fpc old) p = cnt (fcs l) p + cnt (fpc a) p.
  Proof.
    induction l as [|x l IH]; intros [|i] old E; cbn [nth_error set fcs] in *; [discriminate E|discriminate E|injection E as ->; rewrite !cnt_app; lia|].
    rewrite !cnt_app. specialize (IH i old E). lia.
  Qed.
  Lemma fulls_nth m l : forall i c, fulls m l -> nth_error l i = Some c -> fullc m c.
  Proof. induction l as [|x l IH]; intros [|i] c F E; cbn [nth_error fulls] in *; [discriminate E|discriminate E|injection E as ->; apply F|]. eapply IH; [apply F|exact E]. Qed.
  Lemma fulls_set m l a : forall i, fulls m l -> fullc m a -> fulls m (set l i a).
  Proof. induction l as [|x l IH]; intros [|i] F A; cbn [set fulls] in *; tauto || (destruct F; split; auto). Qed.
  Lemma read_cells_nth m l : forall i k, read_cells m l = Ok k -> match nth_error l i with Some c => exists y, read_cell m c = Ok y /\ nth_error k i = Some y | None => nth_error k i = None end.
  Proof.
    induction l as [|x l IH]; intros i k; cbn [read_cells].
    - intros E. injection E as <-. destruct i; reflexivity.
    - destruct (read_cell m x) as [y| |] eqn:X; [|intros D; discriminate D|intros D; discriminate D].
      destruct (read_cells m l) as [z| |]; [|intros D; discriminate D|intros D; discriminate D]. intros E. injection E as <-.
      destruct i as [|i]; cbn [nth_error]; [eauto|]. apply IH. reflexivity.
  Qed.
  Lemma read_cells_set m l a y : read_cell m a = Ok y -> forall i k, read_cells m l = Ok k -> read_cells m (set l i a) = Ok (set k i y).
  Proof.
    intros A. induction l as [|x l IH]; intros i k; cbn [read_cells].
    - intros E. injection E as <-. reflexivity.
    - destruct (read_cell m x) as [y'| |] eqn:X; [|intros D; discriminate D|intros D; discriminate D].
      destruct (read_cells m l) as [z| |] eqn:Z; [|intros D; discriminate D|intros D; discriminate D]. intros E. injection E as <-.
      destruct i as [|i]; cbn [set read_cells].
      + rewrite A, Z. reflexivity.
      + rewrite X, (IH i z eq_refl). reflexivity.
  Qed.
  Lemma set_out {A} (l : list A) a : forall i, nth_error l i = None -> set l i a = l.
  Proof. induction l as [|x l IH]; intros [|i] E; cbn [nth_error set] in *; [reflexivity|reflexivity|discriminate E|rewrite IH by exact E; reflexivity]. Qed.
  Lemma set_same {A} (l : list A) a : forall i, nth_error l i = Some a -> set l i a = l.
  Proof. induction l as [|x l IH]; intros [|i] E; cbn [nth_error set] in *; [reflexivity|reflexivity|injection E as ->; reflexivity|rewrite IH by exact E; reflexivity]. Qed.
  Lemma ast_eta (u : ast) : mk_ast (vars u) (arows u) = u.
  Proof. destruct u; reflexivity. Qed.

  Lemma g_rownew k c : good t (RowNew k c) (step s (RowNew k c)).
  Proof using I.
    cbn [step]. movev I x l s1 N Y S F I1. movev I1 y l2 s2 N2 Y2 S2 F2 I2. destruct x as [w|w|a|x|cs|a|x|h]; try exact Logic.I.
    destruct y as [w|w|b|y|cs|b|y|h]; try exact Logic.I. destruct (show_key _ _ _ S) as (x & R & ->). destruct (show_cells _ _ _ S2) as (xs & R2 & ->).
    cbn [mm env objs hold app] in *.
    apply (inv_perm _ _ _ _ (fpk a ++ fcs cs ++ [])) in I2.
    2: { intros p. cbn [fpv]. rewrite !cnt_app. cbn [count_occ]. lia. }
    pose proof (obj_new_ok _ _ _ _ _ a cs x xs I2 F F2 R R2) as I3. cbn [mm env objs] in I3.
    destruct (push_ok _ _ _ [] [] (VRow (mk_rowh a (length (objs s)))) [] (ARow (length (objs s))) (mm s) I3) as (s' & E & -> & I'); try reflexivity.
    - intros h D. injection D as <-. cbn [h_key h_id]. unfold upd. destruct (Nat.eq_dec _ _); [reflexivity|lia].
    - intros u [].
    - intros p [].
    - cbn [env objs] in I'. eexists. eexists. split; [|exact I']. cbn [astep]. rewrite Y, Y2. unfold plus, without. cbn [vars arows]. rewrite (o_len _ _ _ _ _ I). reflexivity.
  Qed.
  Lemma g_rowclone v : good t (RowClone v) (step s (RowClone v)).
  Proof using I.
    cbn [step]. usev I x l N Y S F. destruct x as [w|w|a|x|cs|k|x|h]; try exact Logic.I.
    destruct (row_read _ _ _ N) as (r & k & cs & R & Q & KE & RK & RC). cbn [show] in S. injection S as <-. rewrite R.
    assert (I1 : inv (mk_st (mm s) (env s) (set (objs s) (h_id h) (Some (mk_robj (r_count r + 1) (r_cells r))))) (mk_ast (vars t) (set (arows t) (h_id h) (k, cs))) kf [] [h_id h]).
    { eapply obj_set_ok; [exact I|exact R|exact Q|apply (o_full _ _ _ _ _ I _ _ R)|exact RC|reflexivity| | |lia].
      - intros j D. cbn [count_occ]. destruct (Nat.eq_dec (h_id h) j); [lia|reflexivity].
      - cbn [count_occ]. destruct (Nat.eq_dec (h_id h) (h_id h)); lia. }
    rewrite (set_same _ _ _ Q), ast_eta in I1.
    destruct (push_ok _ _ _ [] [] (VRow h) [] (ARow (h_id h)) (mm s) I1) as (s' & E & -> & I'); try reflexivity.
    - intros h' D. injection D as <-. exact KE.
    - intros u [].
    - intros p [].
    - exists (plus t (ARow (h_id h))), kf. split; [cbn [astep]; rewrite Y; reflexivity|exact I'].
  Qed.
  Lemma g_rowset v i c : good t (RowSet v i c) (step s (RowSet v i c)).
  Proof using I.
    cbn [step]. usev I x l N Y S F. movev I y l2 s1 N2 Y2 S2 F2 I1. destruct x as [w|w|a|x|cs|a|x|h]; try exact Logic.I.
    destruct y as [w|w|b|a|cs|b|y|h']; try exact Logic.I. destruct (show_cell _ _ _ S2) as (x & RX & ->). cbn [show] in S. injection S as <-.
    destruct (row_read _ _ _ N) as (r & k & cs & R & Q & KE & RK & RC). rewrite R. cbn [mm env objs hold app] in *.
    pose proof (read_cells_nth _ _ i _ RC) as NTH. destruct (nth_error (r_cells r) i) as [old|] eqn:O.
    - destruct (o_full _ _ _ _ _ I _ _ R) as [FK FC].
      assert (I2 : inv (mk_st (mm s) (set (env s) c None) (set (objs s) (h_id h) (Some (mk_robj (r_count r) (set (r_cells r) i a)))))
                       (mk_ast (vars (without t c)) (set (arows t) (h_id h) (k, set cs i x))) kf (fpc old ++ []) []).
      { refine (obj_set_ok _ _ _ _ _ _ _ _ r k cs _ _ _ I1 R Q _ _ _ _ _ _); cbn [mm].
        - apply fulls_set; assumption.
        - apply read_cells_set; assumption.
        - intros p. rewrite !cnt_app. cbn [fpv count_occ]. pose proof (fcs_set _ a p _ _ O). lia.
        - reflexivity.
        - reflexivity.
        - destruct (o_count _ _ _ _ _ I _ _ R). lia. }
      destruct (drop_cell_ok old _ _ _ _ _ I2) as (m2 & E2 & I4 & S3); [eapply fulls_nth; eassumption|]. cbn [mm env objs] in *. rewrite E2.
      eexists. eexists. split; [|exact I4]. cbn [astep]. rewrite Y, Y2, Q. reflexivity.
    - destruct (drop_cell_ok a _ _ _ _ _ I1 F2) as (m2 & E2 & I4 & S3). cbn [mm env objs] in *. rewrite E2.
      eapply done_good; [exact I4|]. cbn [astep]. rewrite Y, Y2, Q. rewrite (set_out _ _ _ NTH), (set_same _ _ _ Q). reflexivity.
  Qed.
  Lemma g_rowpush v i c : careful s (RowPush v i c) = true -> good t (RowPush v i c) (step s (RowPush v i c)).
  Proof using I.
    cbn [step careful]. usev I x l N Y S F. intros CF. movev I y l2 s1 N2 Y2 S2 F2 I1. destruct x as [w|w|a|x|cs|a|x|h]; try exact Logic.I.
    destruct y as [w|w|b|a|cs|b|y|h']; try exact Logic.I. destruct (show_cell _ _ _ S2) as (x & RX & ->). cbn [show] in S. injection S as <-.
    destruct (row_read _ _ _ N) as (r & k & cs & R & Q & KE & RK & RC). rewrite R in CF. rewrite R. cbn [mm env objs hold app] in *.
    pose proof (read_cells_nth _ _ i _ RC) as NTH. destruct (nth_error (r_cells r) i) as [[? ? ?|old]|] eqn:O; [discriminate CF| |].
    - destruct (o_full _ _ _ _ _ I _ _ R) as [FK FC]. pose proof (fulls_nth _ _ _ _ FC O) as FO. rewrite full_list in FO.
      destruct NTH as (ys & RO & NY). rewrite read_list in RO. destruct (read_cells (mm s) old) as [zs| |] eqn:RZ; try discriminate RO. injection RO as <-.
      assert (I2 : inv (mk_st (mm s) (set (env s) c None) (set (objs s) (h_id h) (Some (mk_robj (r_count r) (set (r_cells r) i (CList (old ++ [a])))))))
                       (mk_ast (vars (without t c)) (set (arows t) (h_id h) (k, set cs i (SList (zs ++ [x]))))) kf [] []).
      { refine (obj_set_ok _ _ _ _ _ _ _ _ r k cs _ _ _ I1 R Q _ _ _ _ _ _); cbn [mm].
        - apply fulls_set; [assumption|]. apply full_list. apply fulls_app. split; [exact FO|]. split; [exact F2|exact Logic.I].
        - apply read_cells_set; [|assumption]. rewrite read_list. rewrite (read_cells_app _ _ [a] zs [x] RZ); [reflexivity|]. cbn [read_cells]. rewrite RX. reflexivity.
        - intros p. rewrite !cnt_app. cbn [fpv count_occ]. pose proof (fcs_set _ (CList (old ++ [a])) p _ _ O) as FS. rewrite !fpc_list in FS. rewrite fcs_app in FS. cbn [fcs] in FS.
          rewrite !cnt_app in FS. cbn [count_occ] in FS. lia.
        - reflexivity.
        - reflexivity.
        - destruct (o_count _ _ _ _ _ I _ _ R). lia. }
      eexists. eexists. split; [|exact I2]. cbn [astep]. rewrite Y, Y2, Q, NY. reflexivity.
    - destruct (drop_cell_ok a _ _ _ _ _ I1 F2) as (m2 & E2 & I4 & S3). cbn [mm env objs] in *. rewrite E2.
      eapply done_good; [exact I4|]. cbn [astep]. rewrite Y, Y2, Q, NTH. reflexivity.
  Qed.
  Lemma g_rowread v i : good t (RowRead v i) (step s (RowRead v i)).
  Proof using I.
    cbn [step]. usev I x l N Y S F. destruct x as [w|w|a|x|cs|k|x|h]; try exact Logic.I.
    destruct (row_read _ _ _ N) as (r & k & cs & R & Q & KE & RK & RC). cbn [show] in S. injection S as <-. rewrite R.
    pose proof (read_cells_nth _ _ i _ RC) as NTH. destruct (nth_error (r_cells r) i) as [c|].
    - destruct NTH as (y & RY & NY). rewrite RY. exists t, kf. split; [|exact I]. cbn [astep]. rewrite Y, Q, NY. reflexivity.
    - exists t, kf. split; [|exact I]. cbn [astep]. rewrite Y, Q, NTH. reflexivity.
  Qed.
  Lemma g_show v : good t (Show v) (step s (Show v)).
  Proof using I.
    cbn [step]. usev I x l N Y S F. destruct x as [w|w|a|x|cs|k|x|h].
    - destruct (show_box _ _ _ S) as (b & R & ->). rewrite R. exists t, kf. split; [|exact I]. cbn [astep]. rewrite Y. reflexivity.
    - destruct (show_slice _ _ _ S) as (b & R & ->). rewrite R. exists t, kf. split; [|exact I]. cbn [astep]. rewrite Y. reflexivity.
    - destruct (show_lit _ _ _ S) as (b & R & ->). rewrite R. exists t, kf. split; [|exact I]. cbn [astep]. rewrite Y. reflexivity.
    - destruct (show_cell _ _ _ S) as (b & R & ->). rewrite R. exists t, kf. split; [|exact I]. cbn [astep]. rewrite Y. reflexivity.
    - destruct (show_cells _ _ _ S) as (b & R & ->). rewrite R. exists t, kf. split; [|exact I]. cbn [astep]. rewrite Y. reflexivity.
    - destruct (show_key _ _ _ S) as (b & R & ->). rewrite R. exists t, kf. split; [|exact I]. cbn [astep]. rewrite Y. reflexivity.
    - destruct (show_virt _ _ _ S) as (b & R & ->). rewrite R. exists t, kf. split; [|exact I]. cbn [astep]. rewrite Y. reflexivity.
    - destruct (row_read _ _ _ N) as (r & k & cs & R & Q & KE & RK & RC). cbn [show] in S. injection S as <-. rewrite RK. exists t, kf. split; [|exact I].
      cbn [astep]. rewrite Y, Q. reflexivity.
  Qed.
  Lemma g_drop v : good t (Drop v) (step s (Drop v)).
  Proof using I.
    cbn [step]. movev I x l s1 N Y S F I1. assert (A : astep t (Drop v) = Some (without t v, None)) by (cbn [astep]; rewrite Y; reflexivity).
    assert (W : forall m, inv (mk_st m (set (env s) v None) (objs s)) (without t v) kf [] [] -> good t (Drop v) (Ok (mk_st m (set (env s) v None) (objs s), None))).
    { intros m Q. exists (without t v), kf. auto. }
    cbn [env]. destruct x as [w|w|a|x|cs|k|x|h]; cbn [drop_val].
    - destruct (dealloc_ok _ _ _ _ _ _ I1 F) as (m2 & E2 & I4 & _). cbn [mm env objs] in *. rewrite E2. apply W. exact I4.
    - apply W. exact I1.
    - destruct (drop_lit_ok a _ _ _ _ _ I1 F) as (m2 & E2 & I4 & _). cbn [mm env objs] in *. rewrite E2. apply W. exact I4.
    - destruct (drop_cell_ok x _ _ _ _ _ I1 F) as (m2 & E2 & I4 & _). cbn [mm env objs] in *. rewrite E2. apply W. exact I4.
    - destruct (drop_cells_ok cs _ _ _ _ _ I1 F) as (m2 & E2 & I4 & _). cbn [mm env objs] in *. rewrite E2. apply W. exact I4.
    - destruct (drop_key_ok k _ _ _ _ _ I1 F) as (m2 & E2 & I4 & _). cbn [mm env objs] in *. rewrite E2. apply W. exact I4.
    - apply W. exact I1.
    - cbn [fpv hold app] in I1. destruct (row_read _ _ _ N) as (r & k & cs & R & Q & KE & RK & RC). unfold drop_row. rewrite R.
      destruct (o_full _ _ _ _ _ I _ _ R) as [FK FC].
      destruct (Nat.eqb_spec (r_count r) 1) as [C1|C1].
      + pose proof (obj_kill_ok _ _ _ _ _ _ _ I1 R C1) as I2. rewrite KE. destruct (drop_key_ok _ _ _ _ _ _ I2 FK) as (m2 & E2 & I3 & S3). cbn [mm env objs] in *. rewrite E2.
        destruct (drop_cells_ok (r_cells r) _ _ _ _ _ I3) as (m3 & E3 & I4 & _).
        { cbn [mm]. eapply fulls_same; [|exact FC]. intros p J. apply S3. apply in_or_app. left. exact J. }
        cbn [mm env objs] in *. rewrite E3. exists (without t v), kf. auto.
      + assert (I2 : inv (mk_st (mm s) (set (env s) v None) (set (objs s) (h_id h) (Some (mk_robj (r_count r - 1) (r_cells r))))) (mk_ast (vars (without t v)) (set (arows t) (h_id h) (k, cs))) kf [] []).
        { destruct (o_count _ _ _ _ _ I _ _ R). refine (obj_set_ok _ _ _ _ _ _ _ _ r k cs _ _ _ I1 R Q _ _ _ _ _ _); cbn [mm]; [exact FC|exact RC|reflexivity| | |lia].
          - intros j D. cbn [count_occ]. destruct (Nat.eq_dec (h_id h) j); [lia|reflexivity].
          - cbn [count_occ]. destruct (Nat.eq_dec (h_id h) (h_id h)); lia. }
        rewrite (set_same _ _ _ Q) in I2. exists (without t v), kf. split; [exact A|exact I2].
  Qed.

  Theorem step_ok o : careful s o = true -> good t o (step s o).
  Proof using I.
    destruct o; intros C; auto using g_newbox, g_slice, g_litnum, g_litref, g_litbox, g_asir, g_litclone, g_litslice, g_cellnum, g_cellnull, g_cellbox, g_celllit, g_cellinto, g_newcells,
      g_pushcell, g_popcell, g_celllist, g_cellintolist, g_keycell, g_keynum, g_keybox, g_keyclone, g_virtlit, g_virtkey, g_rownew, g_rowclone, g_rowset, g_rowpush, g_rowread, g_show, g_drop.
  Qed.
End Steps.

Lemma run_ok l : forall s t kf, inv s t kf [] [] -> all_careful s l = true ->
  match run s l with Ok (s', out) => exists t' kf', arun t l = Some (t', out) /\ inv s' t' kf' [] [] | Bad => True | UB => False end.
Proof.
  induction l as [|o l IH]; intros s t kf I C; cbn [run arun all_careful] in *; [eauto|].
  apply andb_true_iff in C as [C1 C2]. pose proof (step_ok _ _ _ I o C1) as G. destruct (step s o) as [[s1 a]| |]; cbn [good] in G; auto.
  destruct G as (t1 & kf1 & E & I1). rewrite E. specialize (IH _ _ _ I1 C2). destruct (run s1 l) as [[s2 b]| |]; auto.
  destruct IH as (t2 & kf2 & E2 & I2). rewrite E2. eauto.
Qed.

(** ** Owners *)
Lemma env_cnt e a : cnt (flat_map (fun b => match b with Some (x, _) => fpv x | None => [] end) e) a = tenv e a.
Proof. induction e as [|[[x l]|] e IH]; cbn [flat_map tenv fpb]; [reflexivity|rewrite cnt_app; lia|cbn [count_occ app]; lia]. Qed.
Lemma row_key_ok (kf : nat -> key) e i : (forall v h l, nth_error e v = Some (Some (VRow h, l)) -> h_key h = kf (h_id h)) -> 0 < handles e i -> row_key e i = fpk (kf i).
Proof.
  induction e as [|b e IH]; cbn [handles row_key]; intros K P; [lia|].
  assert (T : 0 < handles e i -> row_key e i = fpk (kf i)) by (intros Q; apply IH; [intros v h l E; apply (K (S v) h l E)|exact Q]).
  destruct b as [[x l]|]; cbn [isrow] in P; [|apply T; exact P]. destruct x as [w|w|a|c|cs|k|c|h]; try (apply T; exact P).
  destruct (Nat.eq_dec (h_id h) i) as [<-|]; [|apply T; exact P]. rewrite (K 0 h l eq_refl). reflexivity.
Qed.
Lemma rows_cnt (kf : nat -> key) e l a : forall i, (forall j r, nth_error l j = Some (Some r) -> row_key e (i + j) = fpk (kf (i + j))) -> cnt (rows_own e i l) a = tobj kf i l a.
Proof.
  induction l as [|o l IH]; intros i K; cbn [rows_own tobj]; [reflexivity|].
  assert (T : cnt (rows_own e (S i) l) a = tobj kf (S i) l a).
  { apply IH. intros j r E. replace (S i + j) with (i + S j) by lia. apply (K (S j) r E). }
  destruct o as [r|]; cbn [fpo].
  - pose proof (K 0 r eq_refl) as K0. rewrite Nat.add_0_r in K0. rewrite K0. rewrite !cnt_app. lia.
  - cbn [count_occ]. lia.
Qed.
Lemma owned_cnt s t kf : inv s t kf [] [] -> forall a, cnt (owned s) a = live (mm s) a.
Proof.
  intros I a. unfold owned. rewrite cnt_app, env_cnt. rewrite (rows_cnt kf).
  - pose proof (all _ _ _ _ _ I a) as A. cbn [count_occ] in A. lia.
  - intros j r E. cbn [Nat.add]. apply row_key_ok.
    + intros v h l N. apply (v_row _ _ _ _ _ I _ _ _ N).
    + destruct (o_count _ _ _ _ _ I _ _ E) as [C P]. cbn [count_occ] in C. lia.
Qed.
Lemma gone_freed s t kf : inv s t kf [] [] -> gone s -> freed s.
Proof.
  intros I G.
  assert (HZ : forall i, handles (env s) i = 0).
  { intros i. revert G. unfold gone. generalize (env s). induction l as [|b e IH]; intros G; cbn [handles]; [reflexivity|].
    rewrite IH; [|intros v c; apply (G (S v) c)]. destruct b as [b|]; [destruct (G 0 b eq_refl)|reflexivity]. }
  assert (TZ : forall i, tenv (env s) i = 0).
  { intros i. revert G. unfold gone. generalize (env s). induction l as [|b e IH]; intros G; cbn [tenv]; [reflexivity|].
    rewrite IH; [|intros v c; apply (G (S v) c)]. destruct b as [b|]; [destruct (G 0 b eq_refl)|reflexivity]. }
  assert (OZ : forall i r, nth_error (objs s) i <> Some (Some r)).
  { intros i r E. destruct (o_count _ _ _ _ _ I _ _ E) as [C P]. rewrite HZ in C. cbn [count_occ] in C. lia. }
  split; [|exact OZ]. intros a bs E. pose proof (all _ _ _ _ _ I a) as A. rewrite TZ in A. cbn [count_occ] in A. unfold live in A. rewrite E in A.
  assert (Q : forall i, tobj kf i (objs s) a = 0); [|rewrite Q in A; lia].
  clear - OZ. induction (objs s) as [|o l IH]; intros i; cbn [tobj]; [reflexivity|]. rewrite IH; [|intros j r; apply (OZ (S j) r)].
  destruct o as [r|]; [destruct (OZ 0 r eq_refl)|reflexivity].
Qed.
(** *** The end of a scope *)
Lemma run_app l r : forall s, run s (l ++ r) = let! (s1, a) := run s l in let! (s2, b) := run s1 r in Ok (s2, a ++ b).
Proof.
  induction l as [|o l IH]; intros s; cbn [run app]; [destruct (run s r) as [[s2 b]| |]; reflexivity|].
  destruct (step s o) as [[s1 a]| |]; auto. rewrite IH. destruct (run s1 l) as [[s2 b]| |]; auto. destruct (run s2 r) as [[s3 c]| |]; auto.
Qed.
Lemma dealloc_nb m w : dealloc m w <> Bad.
Proof.
  unfold dealloc. destruct (fst w); [intros D; discriminate D|]. destruct (snd w) as [| |a [|o]]; try (intros D; discriminate D).
  destruct (nth_error m a) as [[b|]|]; try (intros D; discriminate D). destruct (_ =? _)%N; intros D; discriminate D.
Qed.
Lemma drop_cell_nb c : forall m, drop_cell m c <> Bad.
Proof.
  induction c as [i c w|l IH] using cell_ind'; intros m.
  - cbn [drop_cell]. destruct (wide c); [apply dealloc_nb|intros D; discriminate D].
  - rewrite drop_list. revert m. induction IH as [|x l X IH IH2]; intros m; cbn [drop_cells]; [intros D; discriminate D|].
    pose proof (X m). destruct (drop_cell m x); [apply IH2|contradiction|intros D; discriminate D].
Qed.
Lemma drop_cells_nb l : forall m, drop_cells m l <> Bad.
Proof.
  induction l as [|x l IH]; intros m; cbn [drop_cells]; [intros D; discriminate D|].
  pose proof (drop_cell_nb x m). destruct (drop_cell m x); [apply IH|contradiction|intros D; discriminate D].
Qed.
Lemma drop_key_nb m k : drop_key m k <> Bad.
Proof. unfold drop_key. destruct (wide (k_cls k)); [apply dealloc_nb|intros D; discriminate D]. Qed.
Lemma drop_val_nb m o x : drop_val m o x <> Bad.
Proof.
  destruct x as [w|w|a|c|cs|k|c|h]; cbn [drop_val]; try (intros D; discriminate D).
  - pose proof (dealloc_nb m w). destruct (dealloc m w); [intros D; discriminate D|contradiction|intros D; discriminate D].
  - unfold drop_lit. destruct (l_heap a); [|intros D; discriminate D]. pose proof (dealloc_nb m (l_word a)). destruct (dealloc m (l_word a)); [intros D; discriminate D|contradiction|intros D; discriminate D].
  - pose proof (drop_cell_nb c m). destruct (drop_cell m c); [intros D; discriminate D|contradiction|intros D; discriminate D].
  - pose proof (drop_cells_nb cs m). destruct (drop_cells m cs); [intros D; discriminate D|contradiction|intros D; discriminate D].
  - pose proof (drop_key_nb m k). destruct (drop_key m k); [intros D; discriminate D|contradiction|intros D; discriminate D].
  - unfold drop_row. destruct (nth_error o (h_id h)) as [[r|]|]; try (intros D; discriminate D). destruct (r_count r =? 1); [|intros D; discriminate D].
    pose proof (drop_key_nb m (h_key h)). destruct (drop_key m (h_key h)) as [m1| |]; [|contradiction|intros D; discriminate D].
    pose proof (drop_cells_nb (r_cells r) m1). destruct (drop_cells m1 (r_cells r)); [intros D; discriminate D|contradiction|intros D; discriminate D].
Qed.
Lemma drop_last s t kf k b : inv s t kf [] [] -> nth_error (env s) k = Some (Some b) -> (forall v, k < v -> forall c, nth_error (env s) v <> Some (Some c)) ->
  exists s', step s (Drop k) = Ok (s', None) /\ env s' = set (env s) k None.
Proof.
  intros I N A. pose proof (g_drop _ _ _ I k) as G. cbn [step] in *. unfold move, use in *. rewrite N in *. destruct b as [x l].
  assert (U : unborrowed s k = true).
  { unfold unborrowed. apply forallb_forall. intros b J. destruct b as [[y l']|]; [|reflexivity]. apply negb_true_iff. apply not_true_iff_false. intros E.
    apply existsb_exists in E as (u & Q & E). apply Nat.eqb_eq in E. subst u. apply In_nth_error in J as (v & J).
    destruct (v_lend _ _ _ _ _ I _ _ _ _ J Q) as [LT _]. apply (A v LT _ J). }
  rewrite U in *. destruct (drop_val (mm s) (objs s) x) as [[m o]| |] eqn:D; cbn [good] in G.
  - eexists. split; reflexivity.
  - destruct (drop_val_nb _ _ _ D).
  - destruct G.
Qed.
Lemma drops_ext s s' n : (forall v, v < n -> nth_error (env s') v = nth_error (env s) v) -> drops s' n = drops s n.
Proof. induction n as [|n IH]; intros E; cbn [drops]; [reflexivity|]. rewrite (E n) by lia. rewrite IH by (intros; apply E; lia). reflexivity. Qed.
Lemma drops_ok n : forall s t kf, inv s t kf [] [] -> (forall v, n <= v -> forall c, nth_error (env s) v <> Some (Some c)) ->
  exists s' out t' kf', run s (drops s n) = Ok (s', out) /\ inv s' t' kf' [] [] /\ gone s'.
Proof.
  induction n as [|n IH]; intros s t kf I A; cbn [drops].
  - exists s, [], t, kf. split; [reflexivity|]. split; [exact I|]. intros v b. apply A. lia.
  - destruct (nth_error (env s) n) as [[b|]|] eqn:N.
    + destruct (drop_last _ _ _ _ _ I N) as (s1 & E & EV); [intros v L; apply A; lia|].
      pose proof (g_drop _ _ _ I n) as G. cbn [run]. rewrite E in G. rewrite E. cbn [good] in G. destruct G as (t1 & kf1 & _ & I1).
      rewrite <- (drops_ext s s1).
      2: { intros v L. rewrite EV, nth_set. destruct (Nat.eq_dec n v); [lia|reflexivity]. }
      destruct (IH _ _ _ I1) as (s2 & out & t2 & kf2 & R & I2 & G2).
      { intros v L c. rewrite EV, nth_set. destruct (Nat.eq_dec n v) as [->|]; [destruct (nth_error (env s) v); intros D; discriminate D|apply A; lia]. }
      rewrite R. eauto 8.
    + apply (IH _ _ _ I). intros v L c. destruct (Nat.eq_dec n v) as [->|]; [rewrite N; intros D; discriminate D|apply A; lia].
    + apply (IH _ _ _ I). intros v L c. destruct (Nat.eq_dec n v) as [->|]; [rewrite N; intros D; discriminate D|apply A; lia].
Qed.
Lemma scope_end_ok s t kf : inv s t kf [] [] -> exists s' out, run s (scope_end s) = Ok (s', out) /\ gone s' /\ freed s'.
Proof.
  intros I. destruct (drops_ok (length (env s)) _ _ _ I) as (s' & out & t' & kf' & R & I' & G).
  - intros v L c E. apply nth_lt in E. lia.
  - exists s', out. split; [exact R|]. split; [exact G|]. eapply gone_freed; eassumption.
Qed.
