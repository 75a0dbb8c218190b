(* Lemmas about type names and the iteration over types. *)
From Coq Require Import String Ascii.
From Verif Require Import Base Big_model Big_field Meta_model Meta_spec Meta_proof Tname_model Tname_spec.

Lemma strip_app p s : strip p (p ++ s) = Some s.
Proof. induction p as [|x p IH]; [reflexivity|]. cbn [app strip]. rewrite Z.eqb_refl. exact IH. Qed.
Lemma strip_some p : forall s r, strip p s = Some r -> s = p ++ r.
Proof.
  induction p as [|x p IH]; intros s r H; cbn [strip] in H; [injection H as ->; reflexivity|].
  destruct s as [|y s]; [discriminate|]. destruct (x =? y) eqn:E; [|discriminate].
  cbn [app]. f_equal; [lia|apply IH, H].
Qed.
Lemma strip_iff p s : begins p s <-> strip p s <> None.
Proof.
  split.
  - intros [r ->]. rewrite strip_app. discriminate.
  - intros H. destruct (strip p s) as [r|] eqn:E; [|congruence]. exists r. apply strip_some, E.
Qed.

Definition letter_code (c : list Z) : Prop := exists d r, c = d :: r /\ ~ 48 <= d <= 57.

Lemma scan_none c r : is_space c = false -> c <> 45 -> c <> 43 -> is_digit c = false -> scan_int (c :: r) = Ok None.
Proof.
  intros S N1 N2 D. unfold scan_int. cbn [skip_spaces]. rewrite S.
  replace (c =? 45) with false by lia. replace (c =? 43) with false by lia. rewrite D. reflexivity.
Qed.

Lemma hexdig_cases d : hexdig d -> (48 <= d <= 57) \/ (97 <= d <= 102).
Proof.
  unfold hexdig. change (text "0123456789abcdef") with
    [48; 49; 50; 51; 52; 53; 54; 55; 56; 57; 97; 98; 99; 100; 101; 102].
  cbn [In]. intros H. lia.
Qed.

Lemma symbol_scan name code s : symbol_of name code s -> (forall c, code = Some c -> letter_code c) ->
  exists rest, strip PREFIX s = Some rest /\ scan_int rest = Ok None.
Proof.
  intros [|c C] L.
  - exists (95 :: name). split; [reflexivity|]. apply scan_none; try discriminate; reflexivity.
  - destruct (L c eq_refl) as (d & r & -> & N). destruct C as [Hl Hd].
    destruct (hexdig_cases d (Hd d (or_introl eq_refl))) as [X|X]; [lia|].
    exists ((d :: r) ++ text "_" ++ name). split; [change (text "__uniqtype_") with PREFIX; apply strip_app|].
    cbn [app]. apply scan_none; unfold is_space, is_digit; lia.
Qed.

Lemma skipn_len (a b : str) n : length a = n -> skipn n (a ++ b) = b.
Proof. intros <-. rewrite skipn_app, skipn_all2, Nat.sub_diag by lia. reflexivity. Qed.

Lemma symbol_named name code s : symbol_of name code s ->
  match strip (of_string "__uniqtype__") s with
  | Some r => Ok r
  | None => match strip PREFIX s with
            | Some r => if len r <? 9 then UB else Ok (skipn 9 r)
            | None => Ok s
            end
  end = Ok name.
Proof.
  intros [|c [Hl Hd]].
  - rewrite (strip_app (of_string "__uniqtype__")). reflexivity.
  - assert (N : strip (of_string "__uniqtype__") (text "__uniqtype_" ++ c ++ text "_" ++ name) = None).
    { destruct (strip (of_string "__uniqtype__") _) as [r|] eqn:E; [|reflexivity].
      apply strip_some in E. exfalso. change (of_string "__uniqtype__") with (text "__uniqtype_" ++ [95]) in E.
      rewrite <- app_assoc in E. apply app_inv_head in E.
      destruct c as [|d c]; [discriminate Hl|]. cbn [app] in E. injection E as -> _.
      specialize (Hd 95 (or_introl eq_refl)). apply hexdig_cases in Hd. lia. }
    rewrite N. change (text "__uniqtype_") with PREFIX. rewrite strip_app.
    rewrite app_assoc. rewrite len_app.
    assert (L9 : length (c ++ text "_") = 9%nat) by (rewrite app_length, Hl; reflexivity).
    replace (len (c ++ text "_")) with 9 by (unfold len; rewrite L9; reflexivity).
    pose proof (len_nonneg name). replace (9 + len name <? 9) with false by lia.
    rewrite skipn_len by exact L9. reflexivity.
Qed.

Lemma app_same (a : str) : forall b u v, length a = length b -> b ++ u = a ++ v -> b = a /\ u = v.
Proof.
  induction a as [|x a IH]; intros [|y b] u v L E; try discriminate L; [auto|].
  cbn [app] in E. injection E as -> E. cbn [length] in L. injection L as L.
  destruct (IH b u v L E) as [-> ->]. auto.
Qed.

Lemma plain_code n1 n2 (c : str) : is_code c -> text "__uniqtype__" ++ n1 <> text "__uniqtype_" ++ c ++ text "_" ++ n2.
Proof.
  intros [L H] E. change (text "__uniqtype__") with (text "__uniqtype_" ++ [95]) in E.
  rewrite <- app_assoc in E. apply app_inv_head in E.
  destruct c as [|d c]; [discriminate L|]. cbn [app] in E. injection E as <- _.
  specialize (H 95 (or_introl eq_refl)). apply hexdig_cases in H. lia.
Qed.

Lemma symbol_cases n c s : symbol_of n c s ->
  (c = None /\ s = text "__uniqtype__" ++ n) \/
  (exists a, c = Some a /\ is_code a /\ s = text "__uniqtype_" ++ a ++ text "_" ++ n).
Proof. intros [|a A]; [left; auto|right; exists a; auto]. Qed.

Lemma symbol_unique n1 c1 s : symbol_of n1 c1 s -> forall n2 c2, symbol_of n2 c2 s -> n1 = n2 /\ c1 = c2.
Proof.
  intros H1 n2 c2 H2. apply symbol_cases in H1. apply symbol_cases in H2.
  destruct H1 as [[-> ->]|(a & -> & A & ->)]; destruct H2 as [[-> E]|(b & -> & B & E)].
  - apply app_inv_head in E. auto.
  - exfalso. exact (plain_code _ _ _ B E).
  - exfalso. symmetry in E. exact (plain_code _ _ _ A E).
  - apply app_inv_head in E. destruct A as [La _]. destruct B as [Lb _].
    apply app_same in E; [|congruence]. destruct E as [-> E]. apply app_inv_head in E. subst. auto.
Qed.

(* strings in a string table *)
Lemma to_null_skip s : forall k, (k <= length (to_null s))%nat -> to_null (skipn k s) = skipn k (to_null s).
Proof.
  induction s as [|c s IH]; intros k H; cbn [to_null] in *.
  - destruct k; reflexivity.
  - destruct (c =? 0) eqn:E.
    + cbn [length] in H. assert (k = 0%nat) by lia. subst k. cbn [skipn to_null]. rewrite E. reflexivity.
    + cbn [length] in H. destruct k as [|k]; cbn [skipn to_null]; [rewrite E; reflexivity|]. apply IH. lia.
Qed.
Lemma skipn_plus {A} (l : list A) : forall a b, skipn a (skipn b l) = skipn (b + a) l.
Proof.
  induction l as [|x l IH]; intros a b; [destruct a, b; reflexivity|].
  destruct b as [|b]; [reflexivity|]. cbn [skipn Nat.add]. apply IH.
Qed.

Lemma names_len : length NAMES = 13%nat. Proof. reflexivity. Qed.

Lemma names_test dynstr off : 0 < off ->
  begins (text "__uniqty") (c_str dynstr off) -> 0 <= off + len (c_str dynstr off) - 13 ->
  str_eqb NAMES (c_str dynstr (off + len (c_str dynstr off) - 13)) = true <->
  ends (text "_subobj_names") (c_str dynstr off).
Proof.
  intros Ho [tl_ Hb] Ha. change (text "_subobj_names") with NAMES.
  set (name := c_str dynstr off) in *. rewrite str_eqb_eq.
  destruct (Z_le_gt_dec 13 (len name)) as [L|L].
  - assert (E : c_str dynstr (off + len name - 13) = skipn (length name - 13) name).
    { unfold name at 2 3, c_str. unfold len in *.
      replace (Z.to_nat (off + Z.of_nat (length name) - 13)) with (Z.to_nat off + (length name - 13))%nat by lia.
      rewrite <- skipn_plus. rewrite to_null_skip; [reflexivity|].
      change (to_null (skipn (Z.to_nat off) dynstr)) with name. lia. }
    rewrite E. split.
    + intros H. exists (firstn (length name - 13) name). rewrite H at 1. symmetry. apply firstn_skipn.
    + intros [r ->]. rewrite app_length, names_len.
      replace (length r + 13 - 13)%nat with (length r) by lia. symmetry. apply skipn_len. reflexivity.
  - split.
    + intros H. exfalso.
      set (j := (13 - length name)%nat).
      assert (J : (1 <= j <= 13)%nat) by (unfold j, len in *; lia).
      assert (EN : name = skipn j NAMES).
      { rewrite H. unfold c_str. rewrite <- to_null_skip.
        - rewrite skipn_plus. unfold name at 1, c_str. do 2 f_equal. unfold j, len in *. lia.
        - change (to_null (skipn (Z.to_nat (off + len name - 13)) dynstr)) with (c_str dynstr (off + len name - 13)).
          rewrite <- H, names_len. lia. }
      clearbody j. rewrite EN in Hb. clear - Hb J.
      assert (C : (j = 1 \/ j = 2 \/ j = 3 \/ j = 4 \/ j = 5 \/ j = 6 \/ j = 7 \/ j = 8 \/ j = 9 \/ j = 10 \/
        j = 11 \/ j = 12 \/ j = 13)%nat) by lia.
      repeat (destruct C as [->|C]; [vm_compute in Hb; discriminate Hb|]). subst j. vm_compute in Hb. discriminate Hb.
    + intros [r E]. exfalso. unfold len in L. rewrite E, app_length, names_len in L. lia.
Qed.

Lemma string_at_c_str tab off s : string_at tab off s -> c_str tab off = s.
Proof.
  intros (pre & post & -> & -> & Z). unfold c_str. rewrite Nat2Z.id. rewrite skipn_len by reflexivity.
  induction s as [|c s IH]; [reflexivity|]. cbn [app to_null].
  replace (c =? 0) with false by (assert (c <> 0) by (apply Z; left; reflexivity); lia).
  f_equal. apply IH. intros d Hd. apply Z. right. exact Hd.
Qed.

Section Iter.
Variables (sane : Z -> bool) (dynstr : str) (load : Z).
Notation wanted := (wanted sane dynstr load).
Notation named := (named dynstr).

Lemma is_type_ok p : named p -> exists b,
  is_type dynstr p = Ok b /\ (b && sane (load + st_value p) = true <-> wanted p).
Proof.
  intros N. unfold is_type. unfold Tname_spec.named in N.
  destruct (st_object p) eqn:EO; cbn [negb].
  2:{ exists false. split; [reflexivity|]. cbn [andb]. split; [discriminate|intros (X & _); congruence]. }
  destruct (st_undef p) eqn:EU.
  1:{ exists false. split; [reflexivity|]. cbn [andb]. split; [discriminate|intros (_ & X & _); congruence]. }
  destruct (N eq_refl eq_refl) as (s & Hs & N1 & N2). replace (st_name p =? 0) with false by lia.
  pose proof (string_at_c_str _ _ _ Hs) as Es.
  assert (U : forall s', string_at dynstr (st_name p) s' -> s' = s).
  { intros s' Hs'. rewrite <- (string_at_c_str _ _ _ Hs'). exact Es. }
  pose proof (names_test dynstr (st_name p) N1) as T.
  rewrite Es in *.
  destruct (strip (of_string "__uniqty") s) as [r|] eqn:E.
  2:{ exists false. split; [reflexivity|]. cbn [andb]. split; [discriminate|].
      intros (_ & _ & s' & Hs' & X & _). rewrite (U s' Hs') in X. apply strip_iff in X.
      change (of_string "__uniqty") with (text "__uniqty") in E. contradiction. }
  assert (B : begins (text "__uniqty") s) by (exists r; apply strip_some; exact E).
  specialize (N2 B).
  replace (st_name p + len s - 13 <? 0) with false by (unfold len; lia).
  eexists. split; [reflexivity|].
  specialize (T B ltac:(unfold len; lia)).
  destruct (str_eqb NAMES _); cbn [negb andb].
  - split; [discriminate|]. intros (_ & _ & s' & Hs' & _ & X & _). exfalso. rewrite (U s' Hs') in X. apply X, T. reflexivity.
  - split.
    + intros S. split; [exact EO|]. split; [exact EU|]. exists s. split; [exact Hs|]. split; [exact B|].
      split; [|exact S]. intros X. apply T in X. discriminate X.
    + intros (_ & _ & s' & _ & _ & _ & S). exact S.
Qed.

Lemma each_sym_ok {A} (cb : A -> Z -> A * Z) l : Forall named l -> forall a, exists a' v us,
  each_sym cb sane dynstr load l a = Ok (a', v) /\ types_of sane dynstr load l us /\ calls cb a us a' v.
Proof.
  induction 1 as [|p l N F IH]; intros a.
  - exists a, 0, []. split; [reflexivity|]. split; [apply to_nil|apply calls_done].
  - cbn [each_sym]. destruct (is_type_ok p N) as (b & -> & W). cbn [bind].
    destruct (b && sane (load + st_value p)).
    + destruct (cb a (load + st_value p)) as [a1 v] eqn:C.
      assert (Wp : wanted p) by (apply W; reflexivity).
      destruct (v =? 0) eqn:V; cbn [negb].
      * assert (v = 0) by lia. subst v. destruct (IH a1) as (a' & v' & us & H1 & H2 & H3).
        exists a', v', (load + st_value p :: us). split; [exact H1|].
        split; [apply to_take; assumption|]. eapply calls_next; eassumption.
      * destruct (IH a) as (_ & _ & us & _ & H2 & _).
        exists a1, v, (load + st_value p :: us). split; [reflexivity|].
        split; [apply to_take; assumption|]. eapply calls_stop; [exact C|lia].
    + destruct (IH a) as (a' & v & us & H1 & H2 & H3). exists a', v, us. split; [exact H1|].
      split; [|exact H3]. apply to_skip; [|exact H2]. intros X. apply W in X. discriminate X.
Qed.
End Iter.
