(** Proofs for C92. *)
From Coq Require Import List NArith Bool Lia.
From Verif Require Import RcModel.
Import ListNotations.
Local Open Scope N_scope.
Local Opaque N.modulo.

Lemma get_in l h x : get l h = Some x -> In x l /\ hid x = h.
Proof. intros E. apply find_some in E. destruct E as (I & E). apply N.eqb_eq in E. split; assumption. Qed.
Lemma put_ids l x : map hid (put l x) = map hid l.
Proof. unfold put. rewrite map_map. apply map_ext. intros y. destruct (N.eqb_spec (hid y) (hid x)); congruence. Qed.
Lemma put_len l x : length (put l x) = length l.
Proof. apply map_length. Qed.
Lemma put_new l x y : In y l -> hid y = hid x -> In x (put l x).
Proof. intros I E. unfold put. apply in_map_iff. exists y. rewrite E, N.eqb_refl. split; [reflexivity|exact I]. Qed.
Lemma put_old l x y : In y l -> hid y <> hid x -> In y (put l x).
Proof. intros I E. unfold put. apply in_map_iff. exists y. apply N.eqb_neq in E. rewrite E. split; [reflexivity|exact I]. Qed.
Lemma del_in l h y : In y l -> hid y <> h -> In y (del l h).
Proof. intros I E. apply filter_In. split; [exact I|]. apply N.eqb_neq in E. rewrite E. reflexivity. Qed.
Lemma del_nodup l h : NoDup (map hid l) -> NoDup (map hid (del l h)).
Proof.
  induction l as [|x l IH]; intros D; [constructor|]. cbn in *. inversion D as [|? ? NI D']. subst. destruct (negb (hid x =? h)); [|apply IH; exact D']. cbn. constructor; [|apply IH; exact D'].
  intros I. apply NI. apply in_map_iff in I. destruct I as (y & E & I). apply filter_In in I. apply in_map_iff. exists y. split; [exact E|exact (proj1 I)].
Qed.
Lemma del_same l h : ~ In h (map hid l) -> del l h = l.
Proof. unfold del. induction l as [|x l IH]; intros N; [reflexivity|]. cbn in *. destruct (N.eqb_spec (hid x) h) as [E|E]; [exfalso; apply N; left; exact E|]. cbn. rewrite IH; [reflexivity|]. intros I. apply N. right. exact I. Qed.
Lemma del_len l h x : NoDup (map hid l) -> get l h = Some x -> length l = Datatypes.S (length (del l h)).
Proof.
  induction l as [|y l IH]; intros D E; [discriminate E|]. cbn in D. inversion D as [|? ? NI D']. subst. unfold get in E. cbn in E |- *. destruct (N.eqb_spec (hid y) h) as [Q|Q].
  - cbn [negb]. fold (del l h). rewrite del_same; [reflexivity|]. rewrite <- Q. exact NI.
  - cbn. f_equal. apply IH; [exact D'|exact E].
Qed.
Lemma has_in t l : has t l = true -> In t l.
Proof. intros H. apply existsb_exists in H. destruct H as (x & I & E). apply N.eqb_eq in E. subst. exact I. Qed.
Lemma in_remove1 t u l : In u l -> u = t \/ In u (remove1 t l).
Proof. induction l as [|x l IH]; intros I; [destruct I|]. cbn. destruct (N.eqb_spec x t) as [E|E]; destruct I as [I|I]; try (right; exact I); [left; congruence|right; left; exact I|]. destruct (IH I) as [Q|Q]; [left; exact Q|right; right; exact Q]. Qed.
Lemma take_pend_ok t l o r : take_pend t l = Some (o, r) -> (forall x, In x l <-> x = (t, o) \/ In x r) /\ length l = Datatypes.S (length r).
Proof.
  revert o r. induction l as [|(u, o') l IH]; intros o r E; [discriminate E|]. cbn in E. destruct (N.eqb_spec u t) as [Q|Q].
  - injection E as <- <-. subst u. split; [|reflexivity]. intros x. cbn. split; intros [A|A]; try (left; congruence); right; exact A.
  - destruct (take_pend t l) as [(x & r')|]; [|discriminate E]. injection E as <- <-. destruct (IH _ _ eq_refl) as (A & B). split; [|cbn; rewrite B; reflexivity]. intros y. cbn. rewrite (A y). tauto.
Qed.
Definition good (l : list (N * N)) : list (N * N) := filter (fun p => negb (isize_max <? snd p)) l.
Lemma good_len l : (length (good l) <= length l)%nat.
Proof. unfold good. induction l as [|x l IH]; [apply le_n|]. cbn [filter length]. destruct (negb (isize_max <? snd x)); cbn [length]; lia. Qed.
Lemma take_pend_good t l o r : take_pend t l = Some (o, r) -> length (good l) = (if isize_max <? o then length (good r) else Datatypes.S (length (good r))).
Proof.
  revert o r. induction l as [|(u, o') l IH]; intros o r E; [discriminate E|]. cbn in E. destruct (u =? t).
  - injection E as <- <-. unfold good. cbn [filter snd]. destruct (isize_max <? o'); reflexivity.
  - destruct (take_pend t l) as [(x & r')|]; [|discriminate E]. injection E as <- <-. specialize (IH _ _ eq_refl). unfold good in *. cbn [filter snd]. destruct (isize_max <? o'); cbn [negb length]; rewrite IH; destruct (isize_max <? x); reflexivity.
Qed.
Lemma upd_mono s t v u : incl (s t) v -> incl (s u) (upd s t v u).
Proof. intros I. unfold upd. destruct (N.eqb_spec u t) as [->|]; [exact I|apply incl_refl]. Qed.
Lemma upd_same s t v : upd s t v t = v.
Proof. unfold upd. rewrite N.eqb_refl. reflexivity. Qed.

(** where the knowledge of an action is *)
Definition known (s : st) (e : N) : Prop :=
  In e (lv s) \/ (exists x, In x (hs s) /\ (In e (hv x) \/ exists t, In t (lent x) /\ In e (tv s t))) \/ (exists t o, In (t, o) (pend s) /\ In e (tv s t)).
Record alive (s : st) : Prop := Al {
  a_ids : NoDup (map hid (hs s));
  a_next : forall x, In x (hs s) -> hid x < nexth s;
  a_cnt : cnt s = N.of_nat (length (hs s) + length (pend s));
  a_good : N.of_nat (length (hs s) + length (good (pend s))) <= 9223372036854775808;
  a_pos : (0 < length (hs s) + length (pend s))%nat;
  a_dr : dr s = []; a_dropped : dropped s = []; a_box : boxfree s = []; a_bad : bad s = false; a_ab : aborted s = false;
  a_ev : forall e, In e (events s) -> known s e
}.
Record dying (s : st) : Prop := Dy {
  d_hs : hs s = []; d_pend : pend s = []; d_bad : bad s = false; d_ab : aborted s = false;
  d_dr : exists t p, dr s = [(t, p)] /\
    match p with
    | PFence rv => dropped s = [] /\ boxfree s = [] /\ incl (events s) (tv s t ++ rv)
    | PDestroy => dropped s = [] /\ boxfree s = [] /\ incl (events s) (tv s t)
    | PFree => (exists v, dropped s = [v] /\ incl (events s) v) /\ boxfree s = [] /\ incl (events s) (tv s t)
    | PDone => (exists v, dropped s = [v] /\ incl (events s) v) /\ (exists v, boxfree s = [v] /\ incl (events s) v)
    end
}.
Record stopped (s : st) : Prop := St { s_ab : aborted s = true; s_bad : bad s = false; s_dropped : dropped s = []; s_box : boxfree s = [] }.
Definition Inv (s : st) : Prop := alive s \/ dying s \/ stopped s.

Lemma init_inv : Inv init.
Proof. left. constructor; cbn; try reflexivity; try lia; [apply NoDup_cons; [intros []|apply NoDup_nil]|intros x [<-|[]]; cbn; lia]. Qed.

(** fewer than 2^63 - 1 threads are inside [rc_clone] *)
Definition calm (s : st) : Prop := N.of_nat (length (pend s)) < 9223372036854775807.

Lemma step_inv s a s' : Inv s -> calm s -> exec s a = Some s' -> Inv s'.
Proof.
  intros I CALM E. unfold exec in E. destruct I as [A|[D|SS]]; [|destruct D as [DH DP DB DA (t0 & p & DR & DD)]|rewrite (s_ab _ SS) in E; discriminate E].
  - rewrite (a_ab _ A) in E. cbv zeta in E. destruct A as [ID NX CN GO PO DR DO BO BA AB EV]. unfold calm in CALM.
    assert (TOT : N.of_nat (length (hs s) + length (pend s)) < two64).
    { pose proof (good_len (pend s)) as GL. unfold two64. lia. }
    destruct a as [t h|t h|t h|t h|t|t h|t|t|t]; try (rewrite DR in E; discriminate E).
    + destruct (get (hs s) h) as [x|] eqn:G; [|discriminate E]. injection E as <-. destruct (get_in _ _ _ G) as (IX & HX). left.
      constructor; cbn [cnt lv tv hs pend dr events dropped boxfree nexth bad aborted]; try assumption; try (rewrite put_len; assumption); try reflexivity; [rewrite put_ids; exact ID| |].
      { intros y IY. unfold put in IY. apply in_map_iff in IY. destruct IY as (z & Q & IZ). specialize (NX z IZ). cbn [hid] in *. destruct (N.eqb_spec (hid z) h); [subst y; cbn; lia|subst y; exact NX]. }
      intros e IE. destruct (EV e IE) as [K|[(y & IY & K)|(u & o & IP & K)]]; unfold known; cbn [cnt lv tv hs pend]; [left; exact K| |].
      * right. left. destruct (N.eq_dec (hid y) h) as [Q|Q].
        -- assert (y = x). { clear - ID IY IX Q HX. subst h. induction (hs s) as [|z l IH]; [destruct IX|]. cbn in ID. inversion ID as [|? ? NI D']. destruct IY as [->|IY]; destruct IX as [->|IX]; try reflexivity; try (exfalso; apply NI; first [rewrite Q|rewrite <- Q]; apply in_map; assumption). apply IH; assumption. }
           subst y. exists (H h (hv x) (t :: lent x)). split; [apply (put_new _ _ x IX); exact HX|]. cbn [hv lent]. destruct K as [K|(u & U & K)]; [left; exact K|]. right. exists u. split; [right; exact U|]. apply (upd_mono (tv s) t _ u); [apply incl_appl; apply incl_refl|exact K].
        -- exists y. split; [apply put_old; [exact IY|exact Q]|]. destruct K as [K|(u & U & K)]; [left; exact K|]. right. exists u. split; [exact U|]. apply (upd_mono (tv s) t _ u); [apply incl_appl; apply incl_refl|exact K].
      * right. right. exists u, o. split; [exact IP|]. apply (upd_mono (tv s) t _ u); [apply incl_appl; apply incl_refl|exact K].
    + destruct (get (hs s) h) as [x|] eqn:G; [|discriminate E]. destruct (has t (lent x)) eqn:HT; [|discriminate E]. injection E as <-. destruct (get_in _ _ _ G) as (IX & HX). left.
      constructor; cbn [cnt lv tv hs pend dr events dropped boxfree nexth bad aborted]; try assumption; try (rewrite put_len; assumption); try reflexivity; [rewrite put_ids; exact ID| |].
      { intros y IY. unfold put in IY. apply in_map_iff in IY. destruct IY as (z & Q & IZ). specialize (NX z IZ). cbn [hid] in *. destruct (N.eqb_spec (hid z) h); [subst y; cbn; lia|subst y; exact NX]. }
      intros e IE. destruct (EV e IE) as [K|[(y & IY & K)|K]]; unfold known; cbn [cnt lv tv hs pend]; [left; exact K| |right; right; exact K].
      right. left. destruct (N.eq_dec (hid y) h) as [Q|Q].
      * assert (y = x). { clear - ID IY IX Q HX. subst h. induction (hs s) as [|z l IH]; [destruct IX|]. cbn in ID. inversion ID as [|? ? NI D']. destruct IY as [->|IY]; destruct IX as [->|IX]; try reflexivity; try (exfalso; apply NI; first [rewrite Q|rewrite <- Q]; apply in_map; assumption). apply IH; assumption. }
        subst y. exists (H h (hv x ++ tv s t) (remove1 t (lent x))). split; [apply (put_new _ _ x IX); exact HX|]. cbn [hv lent]. destruct K as [K|(u & U & K)]; [left; apply in_or_app; left; exact K|].
        destruct (in_remove1 t u _ U) as [->|U']; [left; apply in_or_app; right; exact K|right; exists u; split; assumption].
      * exists y. split; [apply put_old; [exact IY|exact Q]|]. exact K.
    + destruct (get (hs s) h) as [x|] eqn:G; [|discriminate E]. destruct (has t (lent x)) eqn:HT; [|discriminate E]. injection E as <-. destruct (get_in _ _ _ G) as (IX & HX). left. rewrite DO, BO, BA.
      constructor; cbn [cnt lv tv hs pend dr events dropped boxfree nexth bad aborted]; try assumption; try reflexivity.
      assert (MO : forall u, incl (tv s u) (upd (tv s) t (note s :: tv s t) u)) by (intros u; apply upd_mono; apply incl_tl; apply incl_refl).
      intros e [<-|IE]; [right; left; exists x; split; [exact IX|]; right; exists t; split; [apply has_in; exact HT|]; cbn [tv]; rewrite upd_same; left; reflexivity|].
      destruct (EV e IE) as [K|[(y & IY & K)|(u & o & IP & K)]]; unfold known; cbn [cnt lv tv hs pend]; [left; exact K| |].
      * right. left. exists y. split; [exact IY|]. destruct K as [K|(u & U & K)]; [left; exact K|]. right. exists u. split; [exact U|]. apply MO. exact K.
      * right. right. exists u, o. split; [exact IP|]. apply MO. exact K.
    + destruct (get (hs s) h) as [x|] eqn:G; [|discriminate E]. destruct (has t (lent x)) eqn:HT; [|discriminate E]. injection E as <-. destruct (get_in _ _ _ G) as (IX & HX). left. rewrite BO, BA. unfold two64 in *.
      pose proof (good_len (pend s)) as GL.
      assert (HL : (0 < length (hs s))%nat) by (destruct (hs s); [destruct IX|cbn; lia]).
      assert (LT : N.of_nat (length (hs s) + length (pend s)) + 1 < 18446744073709551616).
      { assert (N.of_nat (length (hs s)) <= 9223372036854775808) by lia. lia. }
      constructor; cbn [cnt lv tv hs pend dr events dropped boxfree nexth bad aborted length]; try assumption; try reflexivity; try lia.
      * rewrite N.mod_small by lia. lia.
      * unfold good. cbn [filter snd]. destruct (N.ltb_spec isize_max (cnt s)) as [B|B]; cbn [negb length]; [exact GO|]. fold (good (pend s)). unfold isize_max in B. lia.
      * assert (MO : forall u, incl (tv s u) (upd (tv s) t (note s :: tv s t) u)) by (intros u; apply upd_mono; apply incl_tl; apply incl_refl).
        intros e [<-|IE]; [right; right; exists t, (cnt s); split; [left; reflexivity|]; cbn [tv]; rewrite upd_same; left; reflexivity|].
        destruct (EV e IE) as [K|[(y & IY & K)|(u & o & IP & K)]]; unfold known; cbn [cnt lv tv hs pend]; [left; exact K| |].
        -- right. left. exists y. split; [exact IY|]. destruct K as [K|(u & U & K)]; [left; exact K|]. right. exists u. split; [exact U|]. apply MO. exact K.
        -- right. right. exists u, o. split; [right; exact IP|]. apply MO. exact K.
    + destruct (take_pend t (pend s)) as [(o & r)|] eqn:T; [|discriminate E]. destruct (take_pend_ok _ _ _ _ T) as (MEM & LEN). pose proof (take_pend_good _ _ _ _ T) as GD. destruct (isize_max <? o) eqn:O; injection E as <-.
      * right. right. constructor; try reflexivity; assumption.
      * left. constructor; cbn [cnt lv tv hs pend dr events dropped boxfree nexth bad aborted length map hid]; try assumption; try reflexivity; try lia.
        -- constructor; [|exact ID]. intros IN. apply in_map_iff in IN. destruct IN as (y & Q & IY). specialize (NX y IY). lia.
        -- intros y [<-|IY]; [cbn; lia|]. specialize (NX y IY). lia.
        -- intros e IE. destruct (EV e IE) as [K|[(y & IY & K)|(u & o' & IP & K)]]; unfold known; cbn [cnt lv tv hs pend]; [left; exact K| |].
           ++ right. left. exists y. split; [right; exact IY|exact K].
           ++ apply MEM in IP. destruct IP as [Q|IP]; [|right; right; exists u, o'; split; assumption]. injection Q as -> ->. right. left. eexists. split; [left; reflexivity|]. left. exact K.
    + destruct (get (hs s) h) as [x|] eqn:G; [|discriminate E]. destruct (lent x) as [|u0 l0] eqn:LE; [|discriminate E]. cbn [nonempty] in E. injection E as <-. destruct (get_in _ _ _ G) as (IX & HX). pose proof (del_len _ _ _ ID G) as DL.
      assert (XX : forall y, In y (hs s) -> hid y = h -> y = x). { intros y IY Q. clear - ID IY IX Q HX. subst h. induction (hs s) as [|z l IH]; [destruct IX|]. cbn in ID. inversion ID as [|? ? NI D']. destruct IY as [->|IY]; destruct IX as [->|IX]; try reflexivity; try (exfalso; apply NI; first [rewrite Q|rewrite <- Q]; apply in_map; assumption). apply IH; assumption. }
      set (v := note s :: tv s t ++ hv x). assert (MO : forall u, incl (tv s u) (upd (tv s) t v u)) by (intros u; apply upd_mono; apply incl_tl; apply incl_appl; apply incl_refl).
      assert (CN2 : (cnt s + two64 - 1) mod two64 = N.of_nat (length (del (hs s) h) + length (pend s))).
      { rewrite CN, DL. replace (N.of_nat (Datatypes.S (length (del (hs s) h)) + length (pend s)) + two64 - 1) with (N.of_nat (length (del (hs s) h) + length (pend s)) + 1 * two64) by (unfold two64; lia). rewrite N.mod_add by discriminate. apply N.mod_small. lia. }
      assert (KN : forall e, In e (note s :: events s) -> known (S ((cnt s + two64 - 1) mod two64) (lv s ++ v) (upd (tv s) t v) (del (hs s) h) (pend s) [] (note s :: events s) [] [] (nexth s) false false) e).
      { intros e [<-|IE]; unfold known; cbn [lv tv hs pend]; [left; apply in_or_app; right; left; reflexivity|]. destruct (EV e IE) as [K|[(y & IY & K)|(u & o & IP & K)]].
        - left. apply in_or_app. left. exact K.
        - destruct (N.eq_dec (hid y) h) as [Q|Q].
          + rewrite (XX y IY Q) in K. left. apply in_or_app. right. destruct K as [K|(u & U & _)]; [right; apply in_or_app; right; exact K|]. rewrite LE in U. destruct U.
          + right. left. exists y. split; [apply del_in; assumption|]. destruct K as [K|(u & U & K)]; [left; exact K|]. right. exists u. split; [exact U|]. apply MO. exact K.
        - right. right. exists u, o. split; [exact IP|]. apply MO. exact K. }
      rewrite DO, BO, BA, DR in *. cbn [orb nonempty]. destruct (N.eqb_spec (cnt s) 1) as [C1|C1].
      * right. left. assert (Z1 : (length (del (hs s) h) + length (pend s) = 0)%nat) by lia. assert (ZH : del (hs s) h = []) by (destruct (del (hs s) h); [reflexivity|cbn in Z1; lia]). assert (ZP : pend s = []) by (destruct (pend s); [reflexivity|cbn in Z1; lia]).
        constructor; cbn [hs pend bad aborted dr]; try assumption; try reflexivity. exists t, (PFence (lv s)). split; [reflexivity|]. cbn [dropped boxfree tv events]. split; [reflexivity|]. split; [reflexivity|].
        rewrite upd_same. intros e IE. destruct (KN e IE) as [K|[(y & IY & _)|(u & o & IP & _)]]; cbn [lv tv hs pend] in *.
        -- apply in_app_or in K. apply in_or_app. destruct K as [K|K]; [right; exact K|left; exact K].
        -- rewrite ZH in IY. destruct IY.
        -- rewrite ZP in IP. destruct IP.
      * left. constructor; cbn [cnt lv tv hs pend dr events dropped boxfree nexth bad aborted]; try assumption; try reflexivity.
        -- apply del_nodup. exact ID.
        -- intros y IY. apply filter_In in IY. apply NX. exact (proj1 IY).
        -- lia.
        -- lia.
  - rewrite DA in E. cbv zeta in E. rewrite DH, DP, DR, DB in E. destruct a as [t h|t h|t h|t h|t|t h|t|t|t]; try discriminate E; cbn [take_dr] in E; destruct (N.eqb_spec t0 t) as [->|]; try discriminate E; destruct p as [rv| | |]; try discriminate E; injection E as <-; right; left.
    + destruct DD as (D1 & D2 & D3). constructor; cbn [hs pend bad aborted dr]; try assumption; try reflexivity. exists t, PDestroy. split; [reflexivity|]. cbn [dropped boxfree tv events]. split; [exact D1|]. split; [exact D2|]. rewrite upd_same. exact D3.
    + destruct DD as (D1 & D2 & D3). rewrite D1, D2. constructor; cbn [hs pend bad aborted dr]; try assumption; try reflexivity. exists t, PFree. split; [reflexivity|]. cbn [dropped boxfree tv events]. split; [exists (tv s t); split; [reflexivity|exact D3]|]. split; [reflexivity|exact D3].
    + destruct DD as (D1 & D2 & D3). rewrite D2. constructor; cbn [hs pend bad aborted dr]; try assumption; try reflexivity. exists t, PDone. split; [reflexivity|]. cbn [dropped boxfree tv events]. split; [exact D1|]. exists (tv s t). split; [reflexivity|exact D3].
Qed.
