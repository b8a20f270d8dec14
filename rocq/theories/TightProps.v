(** Further statements for C80, C83 and C87, added after wrong programs had passed the first ones. *)
From Coq Require Import Strings.String List NArith ZArith Bool Lia.
From Verif Require Import Bytes AMap DataModel CodecModel CodecProofs CodecProps GnsCodecModel GnsCodecProofs GnsModel GnsProofs RowModel BatchModel V1Model V1Spec V1LogProps V1FileProps
  UpgradeModel NumModel.
From Verif Require PrintModel.
Import ListNotations.
Local Open Scope N_scope.

(** ** C87: rows are numbered *)

(** Each row of an answer is on a line of its own, in order, after its number; the first row has number 1. *)
Theorem C87_rows_numbered : forall f32 f64 sty okay red special pretty rs, rs <> [] ->
  PrintModel.format_response f32 f64 sty okay red special pretty (PrintModel.RsRows rs) =
  concat (map (fun x => let num := bstr "("%string ++ dec_u64 (fst x) ++ bstr ")"%string in
                        (if pretty then sty num else num) ++ PrintModel.print_row f32 f64 sty pretty (snd x) ++ [LF])
              (combine (map N.of_nat (seq 1 (List.length rs))) rs)).
Proof.
  intros f32 f64 sty okay red special pretty rs NE.
  assert (G : forall rs i, PrintModel.print_rows f32 f64 sty pretty (N.of_nat i) rs =
    concat (map (fun x => let num := bstr "("%string ++ dec_u64 (fst x) ++ bstr ")"%string in
                        (if pretty then sty num else num) ++ PrintModel.print_row f32 f64 sty pretty (snd x) ++ [LF])
              (combine (map N.of_nat (seq i (List.length rs))) rs))).
  { clear. induction rs as [|r rs IH]; intros i; [reflexivity|]. cbn [PrintModel.print_rows List.length seq map combine concat fst snd].
    replace (N.of_nat i + 1) with (N.of_nat (S i)) by lia. rewrite IH. cbv zeta. rewrite <- !app_assoc. reflexivity. }
  destruct rs as [|r rs]; [contradiction|]. exact (G (r :: rs) 1%nat).
Qed.
Print Assumptions C87_rows_numbered.
Example C87_rows_numbered_example :
  PrintModel.format_response (fun _ => []) (fun _ => []) (fun s => s) (fun s => s) (fun s => s) false false
    (PrintModel.RsRows [[PrintModel.VUInt 7; PrintModel.VBool true]; [PrintModel.VUInt 9; PrintModel.VBool false]; [PrintModel.VUInt 5; PrintModel.VNull]]) =
  bstr "(1)(7, true)"%string ++ [LF] ++ bstr "(2)(9, false)"%string ++ [LF] ++ bstr "(3)(5, null"%string ++ [LF] ++ bstr ")"%string ++ [LF].
Proof. vm_compute. reflexivity. Qed.

(** ** C83: an event with more bytes after it *)

(** An event followed by anything is not accepted. *)
Theorem C83_trailing_refused : forall utf8 e rest n, event_wf utf8 e -> ev_code e < 8 -> rest <> [] ->
  forall n', v1_gns_upd utf8 (ev_payload e ++ rest) n <> VuOk n'.
Proof.
  intros utf8 e rest n W C NE n' H. unfold v1_gns_upd, ev_payload in H. rewrite <- app_assoc in H.
  assert (L : List.length (u16_le (ev_code e)) = 2%nat) by apply le_enc_length.
  rewrite (take_app_k 2 _ _ L) in H. unfold u16_le in H. rewrite le_dec_enc in H by (change (256 ^ N.of_nat 2) with 65536; lia).
  apply N.ltb_lt in C. rewrite C, (event_roundtrip_body utf8 e rest W) in H.
  destruct (apply_event n e); [|discriminate H]. destruct rest; [contradiction|discriminate H].
Qed.
Print Assumptions C83_trailing_refused.
Example C83_trailing_example : let e := EvDropSpace (mk_sid 9 (bstr "shop"%string)) in event_wf (fun _ => true) e /\ ev_code e < 8 /\
  match v1_gns_upd (fun _ => true) (ev_payload (EvCreateSpace (bstr "shop"%string) (mk_space_layout 9 []))) ns_empty with
  | VuOk n1 => (match v1_gns_upd (fun _ => true) (ev_payload e) n1 with VuOk _ => true | _ => false end,
                match v1_gns_upd (fun _ => true) (ev_payload e ++ [x00]) n1 with VuErr _ => true | _ => false end)
  | _ => (false, false)
  end = (true, true).
Proof. split; [repeat split; vm_compute; try reflexivity|]. split; vm_compute; reflexivity. Qed.

(** ** C80: the accounts file *)

(** What is accepted: a dictionary with exactly the entries [auth] and [sys]; [auth] has exactly [users],
    the accounts, each with one password hash and nothing else; [sys] has exactly the two counters; the
    root account is among the accounts. *)
Theorem C80_accounts_exact : forall d us sc sv, NoDup (map fst d) -> (forall k m, In (k, DMap m) d -> NoDup (map fst m)) ->
  (sysdb_parse d = Some (us, sc, sv) <->
   In root_account (map fst us) /\
   exists auth sys ud c v, aget bseq (bstr "auth") d = Some (DMap auth) /\ aget bseq (bstr "sys") d = Some (DMap sys) /\
     (forall k, In k (map fst d) -> k = bstr "auth" \/ k = bstr "sys") /\
     auth = [(bstr "users", DMap ud)] /\ ud = map (fun kv => (fst kv, DData (CList [CBin (snd kv)]))) us /\
     aget bseq (bstr "sc") sys = Some (DData (CQw c sc)) /\ aget bseq (bstr "sv") sys = Some (DData (CQw v sv)) /\
     (forall k, In k (map fst sys) -> k = bstr "sc" \/ k = bstr "sv") /\
     In c [QU8; QU16; QU32; QU64] /\ In v [QU8; QU16; QU32; QU64]).
Proof.
  intros d us sc sv ND NDM.
  assert (TK : forall k d e d', dict_take k d = Some (e, d') -> aget bseq k d = Some e /\ d' = adel bseq k d).
  { intros k d0 e d' H. unfold dict_take in H. destruct (aget bseq k d0); inversion H; subst; auto. }
  assert (UI : forall e n, as_uint e = Some n -> exists c, e = DData (CQw c n) /\ In c [QU8; QU16; QU32; QU64]).
  { intros e n H. unfold as_uint in H. destruct e as [c|]; [|discriminate H]. destruct c; try discriminate H. match goal with K : qsel |- _ => destruct K end; inversion H; subst; eexists; (split; [reflexivity|]); cbn; auto 6. }
  assert (UO : forall ud us, users_of ud = Some us <-> ud = map (fun kv => (fst kv, DData (CList [CBin (snd kv)]))) us).
  { clear. induction ud as [|[u e] ud IH]; intros us; cbn [users_of].
    - split; [intros H; injection H as <-; reflexivity|]. destruct us; [reflexivity|intros H; discriminate H].
    - destruct (as_user e) as [h|] eqn:AU.
      + assert (EE : e = DData (CList [CBin h])).
        { unfold as_user in AU. destruct e as [c|]; [|discriminate AU]. destruct c; try discriminate AU. destruct l as [|c0 l]; [discriminate AU|]. destruct c0; try discriminate AU. destruct l; [|discriminate AU]. injection AU as ->. reflexivity. }
        subst e. destruct (users_of ud) as [us'|].
        * pose proof (proj1 (IH us') eq_refl) as E. subst ud. split; [intros H; injection H as <-; reflexivity|]. intros H. destruct us as [|[a b] us]; [discriminate H|]. cbn in H. injection H as -> -> H.
          pose proof (proj2 (IH us) H) as X. injection X as ->. reflexivity.
        * split; [intros H; discriminate H|]. intros H. destruct us as [|[a b] us]; [discriminate H|]. cbn in H. injection H as -> -> H. pose proof (proj2 (IH us) H) as X. discriminate X.
      + split; [intros H; discriminate H|]. intros H. destruct us as [|[a b] us]; [discriminate H|]. cbn in H. injection H as -> -> _. discriminate AU. }
  assert (D2 : forall a b (m : dict), NoDup (map fst m) -> adel bseq b (adel bseq a m) = [] <-> forall k, In k (map fst m) -> k = a \/ k = b).
  { intros a b m _. unfold adel. split.
    - intros H k I. apply in_map_iff in I as [[k' e] [<- I]]. cbn [fst].
      destruct (bseq a k') eqn:A; [apply bseq_eq in A; auto|]. destruct (bseq b k') eqn:B; [apply bseq_eq in B; auto|]. exfalso.
      assert (X : In (k', e) []); [|destruct X]. rewrite <- H. apply filter_In. split; [apply filter_In; split; [exact I|cbn; rewrite A; reflexivity]|cbn; rewrite B; reflexivity].
    - intros H. destruct (filter _ (filter _ m)) as [|[k' e] l] eqn:E; [reflexivity|]. exfalso.
      assert (X : In (k', e) ((k', e) :: l)) by (left; reflexivity). rewrite <- E in X. apply filter_In in X as [X B]. apply filter_In in X as [X A]. cbn in A, B.
      destruct (H k' (in_map fst _ _ X)) as [-> | ->]; rewrite bseq_refl in *; discriminate. }
  assert (D1 : forall a e (m : dict), NoDup (map fst m) -> aget bseq a m = Some e -> adel bseq a m = [] -> m = [(a, e)]).
  { intros a e m N G X.
    assert (ALL : forall k, In k (map fst m) -> k = a).
    { intros k I. apply in_map_iff in I as [[k' e'] [<- I]]. cbn [fst]. destruct (bseq a k') eqn:A; [apply bseq_eq in A; auto|]. exfalso.
      assert (Y : In (k', e') []); [|destruct Y]. rewrite <- X. unfold adel. apply filter_In. split; [exact I|]. cbn. rewrite A. reflexivity. }
    destruct m as [|[k1 e1] [|[k2 e2] m]]; [discriminate G| |].
    - assert (k1 = a) as -> by (apply ALL; left; reflexivity). cbn [aget] in G. rewrite bseq_refl in G. injection G as ->. reflexivity.
    - assert (k1 = a) as -> by (apply ALL; left; reflexivity). assert (k2 = a) as -> by (apply ALL; right; left; reflexivity). inversion N; subst. destruct H1. left. reflexivity. }
  assert (IN : forall k e (m : dict), aget bseq k m = Some e -> In (k, e) m).
  { clear. induction m as [|[k' e'] m IH]; cbn [aget]; [intros H; discriminate H|]. destruct (bseq k k') eqn:E; [apply bseq_eq in E; subst k'; intros H; injection H as ->; left; reflexivity|]. right. auto. }
  split.
  - intros H. unfold sysdb_parse in H.
    destruct (dict_take (bstr "auth") d) as [[a d1]|] eqn:E1; [|discriminate H]. apply TK in E1 as [A1 ->].
    destruct (as_dict a) as [auth|] eqn:E2; [|discriminate H]. destruct a as [|a]; [discriminate E2|]. injection E2 as ->.
    destruct (dict_take (bstr "sys") _) as [[b d2]|] eqn:E3; [|discriminate H]. apply TK in E3 as [A2 ->]. rewrite (aget_del_other bseq bseq_eq) in A2 by discriminate.
    destruct (as_dict b) as [sys|] eqn:E4; [|discriminate H]. destruct b as [|b]; [discriminate E4|]. injection E4 as ->.
    destruct (dict_take (bstr "users") auth) as [[u auth1]|] eqn:E5; [|discriminate H]. apply TK in E5 as [A3 ->].
    destruct (as_dict u) as [ud|] eqn:E6; [|discriminate H]. destruct u as [|u]; [discriminate E6|]. injection E6 as ->.
    destruct (users_of ud) as [us'|] eqn:E7; [|discriminate H]. apply UO in E7.
    destruct (dict_take (bstr "sc") sys) as [[c s1]|] eqn:E8; [|discriminate H]. apply TK in E8 as [A4 ->].
    destruct (as_uint c) as [sc'|] eqn:E9; [|discriminate H]. apply UI in E9 as (c1 & -> & C1).
    destruct (dict_take (bstr "sv") _) as [[v s2]|] eqn:E10; [|discriminate H]. apply TK in E10 as [A5 ->]. rewrite (aget_del_other bseq bseq_eq) in A5 by discriminate.
    destruct (as_uint v) as [sv'|] eqn:E11; [|discriminate H]. apply UI in E11 as (v1 & -> & V1).
    destruct (adel bseq (bstr "sys") _) eqn:X1; [|discriminate H]. destruct (adel bseq (bstr "users") auth) eqn:X2; [|discriminate H]. destruct (adel bseq (bstr "sv") _) eqn:X3; [|discriminate H].
    destruct (aget bseq root_account us') as [rh|] eqn:RA; [|discriminate H]. injection H as -> -> ->.
    split; [destruct (in_dec (list_eq_dec Byte.byte_eq_dec) root_account (map fst us)) as [I|NI]; [exact I|]; apply (aget_none bseq bseq_eq) in NI; unfold bytes in *; congruence|].
    exists auth, sys, ud, c1, v1. pose proof (IN _ _ _ A1) as I1. pose proof (IN _ _ _ A2) as I2.
    split; [exact A1|]. split; [exact A2|]. split; [apply D2; [exact ND|exact X1]|]. split; [apply D1; [eapply NDM; exact I1|exact A3|exact X2]|].
    split; [exact E7|]. split; [exact A4|]. split; [exact A5|]. split; [apply D2; [eapply NDM; exact I2|exact X3]|]. split; assumption.
  - intros (R & auth & sys & ud & c & v & A1 & A2 & K1 & -> & UD & A4 & A5 & K2 & C1 & V1).
    pose proof (IN _ _ _ A1) as I1. pose proof (IN _ _ _ A2) as I2. apply UO in UD.
    assert (AU : forall q n, In q [QU8; QU16; QU32; QU64] -> as_uint (DData (CQw q n)) = Some n) by (intros q n [<-|[<-|[<-|[<-|[]]]]]; reflexivity).
    unfold sysdb_parse, dict_take. rewrite A1. cbn [as_dict]. rewrite (aget_del_other bseq bseq_eq) by discriminate. rewrite A2. cbn [as_dict aget]. rewrite bseq_refl. cbn [as_dict].
    rewrite UD, A4, AU by exact C1. rewrite (aget_del_other bseq bseq_eq) by discriminate. rewrite A5, AU by exact V1.
    rewrite (proj2 (D2 _ _ d ND) K1), (proj2 (D2 _ _ sys (NDM _ _ I2)) K2). unfold adel. cbn [filter fst]. rewrite bseq_refl. cbn [negb].
    destruct (aget bseq root_account us) eqn:RA; [reflexivity|]. apply (aget_none bseq bseq_eq) in RA. destruct (RA R).
Qed.
Print Assumptions C80_accounts_exact.
Example C80_accounts_exact_example :
  sysdb_parse (sysdb_dict false true xf_users 3 0) = Some (xf_users, 3, 0) /\
  sysdb_parse (sysdb_dict false true [(bstr "bob", bstr "hash2")] 3 0) = None /\
  sysdb_parse (sysdb_dict false true xf_users 3 0 ++ [(bstr "more", DMap [])]) = None.
Proof. repeat split; vm_compute; reflexivity. Qed.

(** ** C80: the columns added and removed *)

(** what the log says about one model since it was last created, in order *)
Definition changes1 (id : ent) (l : list (bool * bytes)) (e : gns_event) : list (bool * bytes) :=
  match e with
  | EvCreateModel s n _ => if ent_eqb (sid_name s, n) id then [] else l
  | EvAlterModelAdd m fs => if ent_eqb (sid_name (mid_space m), mid_name m) id then l ++ map (fun f => (true, fst f)) fs else l
  | EvAlterModelRemove m ks => if ent_eqb (sid_name (mid_space m), mid_name m) id then l ++ map (fun k => (false, k)) ks else l
  | _ => l
  end.
Definition changes (id : ent) (es : list gns_event) : list (bool * bytes) := fold_left (changes1 id) es [].

(** The column changes kept for a model are exactly those the log tells about it. *)
Theorem C80_deltas : forall es id,
  sds_get (fold_left sds_event es []) id = map (fun c => match c with (true, k) => SdAdd k | (false, k) => SdRem k end) (changes id es).
Proof.
  intros es id. unfold changes. assert (G : forall es d l, sds_get d id = map (fun c : bool * bytes => match c with (true, k) => SdAdd k | (false, k) => SdRem k end) l ->
    sds_get (fold_left sds_event es d) id = map (fun c => match c with (true, k) => SdAdd k | (false, k) => SdRem k end) (fold_left (changes1 id) es l)); [|apply G; reflexivity].
  clear. induction es as [|e es IH]; intros d l H; [exact H|]. cbn [fold_left]. apply IH. clear IH.
  assert (P : forall x v, sds_get (aput ent_eqb x v d) id = if ent_eqb x id then v else sds_get d id).
  { intros x v. unfold sds_get. destruct (ent_eqb x id) eqn:E.
    - apply ent_eqb_eq in E. subst x. rewrite (aget_put_same ent_eqb ent_eqb_eq). reflexivity.
    - rewrite (aget_put_other ent_eqb ent_eqb_eq); [reflexivity|]. intros <-. rewrite (eqb_r ent_eqb ent_eqb_eq) in E. discriminate E. }
  destruct e; cbn [sds_event changes1]; auto; rewrite P; unfold mid_ent.
  - destruct (ent_eqb _ id); [reflexivity|exact H].
  - destruct (ent_eqb _ id) eqn:E; [|exact H]. apply ent_eqb_eq in E. rewrite E, H, map_app, map_map. reflexivity.
  - destruct (ent_eqb _ id) eqn:E; [|exact H]. apply ent_eqb_eq in E. rewrite E, H, map_app, map_map. reflexivity.
Qed.
Print Assumptions C80_deltas.
Example C80_deltas_example : let m := mk_mid (mk_sid 1 (bstr "s")) (bstr "m") 2 0 in let f := mk_field false [] in
  sds_get (fold_left sds_event [EvAlterModelAdd m [(bstr "x", f)]; EvCreateModel (mk_sid 1 (bstr "s")) (bstr "m") (mk_layout 2 (bstr "id") TsU64 []);
    EvAlterModelAdd m [(bstr "a", f); (bstr "b", f)]; EvAlterModelRemove m [bstr "a"]] []) (bstr "s", bstr "m") = [SdAdd (bstr "a"); SdAdd (bstr "b"); SdRem (bstr "a")].
Proof. vm_compute. reflexivity. Qed.
