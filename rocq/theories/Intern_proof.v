(* Names of run-time types can be read back in one way only. *)
From Verif Require Import Base Big_model Intern_model.
From Coq Require DecimalN DecimalPos.

Definition holds (p s : str) : Prop := exists a b, s = a ++ p ++ b.
(* names of types not made at run time *)
Definition basename (b : str) : Prop :=
  ~ holds (L "__ARG") b /\ ~ holds (L "__FUN_TO") b /\
  pre (L "__ARR") b = false /\ pre (L "__PTR") b = false /\ pre (L "__FUN") b = false.

Inductive nc := NArr (d e : str) | NPtr (p : str) | NFun (args : list str) (ret : str).
Fixpoint pieces (args : list str) (i : Z) : str :=
  match args with [] => [] | a :: t => L "__ARG" ++ decd i ++ L "_" ++ a ++ pieces t (i + 1) end.
Definition enc (c : nc) : str :=
  match c with
  | NArr d e => L "__ARR" ++ d ++ L "_" ++ e
  | NPtr p => L "__PTR_" ++ p
  | NFun args ret => L "__FUN_FROM_" ++ pieces args 0 ++ L "__FUN_TO_" ++ ret
  end.
Definition parts (c : nc) : list str := match c with NArr _ e => [e] | NPtr p => [p] | NFun args ret => ret :: args end.
Definition digits (c : nc) : Prop := match c with NArr d _ => ~ In "_"%char d | _ => True end.
Inductive N : str -> Prop :=
| Nb b : basename b -> N b
| Ne c : digits c -> Forall N (parts c) -> N (enc c).
Definition starts (r : str) : Prop := r = [] \/ (exists x, r = L "__ARG" ++ x) \/ (exists x, r = L "__FUN_TO_" ++ x).

Lemma nosplit d1 d2 x1 x2 : ~ In "_"%char d1 -> ~ In "_"%char d2 -> d1 ++ L "_" ++ x1 = d2 ++ L "_" ++ x2 -> d1 = d2 /\ x1 = x2.
Proof.
  revert d2. induction d1 as [|c d1 IH]; intros [|c' d2] H1 H2 E; cbn in E.
  - injection E as <-. auto.
  - injection E as <- _. exfalso. apply H2. left. auto.
  - injection E as -> _. exfalso. apply H1. left. auto.
  - injection E as <- E. destruct (IH d2) as (-> & ->); auto; intros I; [apply H1|apply H2]; right; auto.
Qed.

Ltac lits := cbn [L list_ascii_of_string app] in *.
Lemma base_base1 b l r1 r2 : ~ holds (L "__ARG") (b ++ l) -> ~ holds (L "__FUN_TO") (b ++ l) -> starts r1 -> starts r2 -> r1 = l ++ r2 -> l = [].
Proof.
  intros A F S1 S2 E. destruct S1 as [->|[(x & ->)|(x & ->)]].
  - destruct l; auto. discriminate.
  - destruct l as [|c0 [|c1 [|c2 [|c3 [|c4 l]]]]]; auto; exfalso;
      try (destruct S2 as [->|[(y & ->)|(y & ->)]]; lits; rewrite ?app_nil_r in E; discriminate E).
    apply A. exists b, l. lits. injection E as <- <- <- <- <- _. reflexivity.
  - destruct l as [|c0 [|c1 [|c2 [|c3 [|c4 [|c5 [|c6 [|c7 l]]]]]]]]; auto; exfalso;
      try (destruct S2 as [->|[(y & ->)|(y & ->)]]; lits; rewrite ?app_nil_r in E; discriminate E).
    apply F. exists b, l. lits. injection E as <- <- <- <- <- <- <- <- _. reflexivity.
Qed.
Lemma base_base b b' r1 r2 : basename b -> basename b' -> starts r1 -> starts r2 -> b ++ r1 = b' ++ r2 -> b = b' /\ r1 = r2.
Proof.
  intros (A & F & _) (A' & F' & _) S1 S2 E. apply app_eq_app in E. destruct E as (l & [(-> & E)|(-> & E)]).
  - assert (l = []) by (eapply base_base1 with (b := b'); [exact A|exact F|exact S2|exact S1|exact E]). subst. rewrite app_nil_r. auto.
  - assert (l = []) by (eapply base_base1 with (b := b); [exact A'|exact F'|exact S1|exact S2|exact E]). subst. rewrite app_nil_r. auto.
Qed.
Lemma enc_head c : exists x, enc c = L "__ARR" ++ x \/ enc c = L "__PTR_" ++ x \/ enc c = L "__FUN_FROM_" ++ x.
Proof. destruct c; cbn [enc]; eauto. Qed.
Lemma base_enc b c r1 r2 : basename b -> starts r1 -> b ++ r1 <> enc c ++ r2.
Proof.
  intros (_ & _ & P1 & P2 & P3) S1 E. destruct (enc_head c) as (x & [H|[H|H]]); rewrite H in E; clear H c.
  all: destruct b as [|c0 [|c1 [|c2 [|c3 [|c4 b]]]]];
    try (destruct S1 as [->|[(y & ->)|(y & ->)]]; lits; rewrite ?app_nil_r in E; discriminate E).
  all: lits; injection E as -> -> -> -> -> _; cbn in *; discriminate.
Qed.

Lemma pieces_app args i r : starts r -> starts (pieces args i ++ r).
Proof. destruct args; cbn [pieces]; auto. intros _. right. left. rewrite <- !app_assoc. eauto. Qed.

Definition readable (len : nat) : Prop := forall n1 n2 r1 r2, (length (n1 ++ r1) <= len)%nat -> N n1 -> N n2 -> starts r1 -> starts r2 ->
  n1 ++ r1 = n2 ++ r2 -> n1 = n2 /\ r1 = r2.
Lemma pieces_inj len : readable len -> forall a1 a2 i ret1 ret2 r1 r2,
  (length (pieces a1 i ++ L "__FUN_TO_" ++ ret1 ++ r1) <= len)%nat -> Forall N a1 -> Forall N a2 -> N ret1 -> N ret2 -> starts r1 -> starts r2 ->
  pieces a1 i ++ L "__FUN_TO_" ++ ret1 ++ r1 = pieces a2 i ++ L "__FUN_TO_" ++ ret2 ++ r2 -> a1 = a2 /\ ret1 = ret2 /\ r1 = r2.
Proof.
  intros R. induction a1 as [|a1 t1 IH]; intros [|a2 t2] i ret1 ret2 r1 r2 LN F1 F2 N1 N2 S1 S2 E; cbn [pieces] in E.
  - cbn [app] in E. apply app_inv_head in E. destruct (R ret1 ret2 r1 r2) as (-> & ->); auto. cbn [pieces app] in LN. rewrite !app_length in *. cbn in LN. lia.
  - rewrite <- !app_assoc in E. lits. discriminate.
  - rewrite <- !app_assoc in E. lits. discriminate.
  - rewrite <- !app_assoc in E. apply app_inv_head, app_inv_head, app_inv_head in E. inversion F1; subst. inversion F2; subst.
    assert (SS : forall t ret r, starts (pieces t (i + 1) ++ L "__FUN_TO_" ++ ret ++ r)).
    { intros. apply pieces_app. right. right. eauto. }
    cbn [pieces] in LN.
    assert (LA : (length (a1 ++ pieces t1 (i + 1) ++ L "__FUN_TO_" ++ ret1 ++ r1) <= len)%nat) by (rewrite !app_length in *; lia).
    destruct (R a1 a2 _ _ LA ltac:(assumption) ltac:(assumption) (SS _ _ _) (SS _ _ _) E) as (-> & E').
    destruct (IH t2 (i + 1) ret1 ret2 r1 r2) as (-> & -> & ->); auto. rewrite !app_length in *. lia.
Qed.
Lemma enc_inj len : readable len -> forall c1 c2 r1 r2, (length (enc c1 ++ r1) <= S len)%nat -> digits c1 -> digits c2 ->
  Forall N (parts c1) -> Forall N (parts c2) -> starts r1 -> starts r2 -> enc c1 ++ r1 = enc c2 ++ r2 -> c1 = c2 /\ r1 = r2.
Proof.
  intros R c1 c2 r1 r2 LN D1 D2 P1 P2 S1 S2 E. destruct c1 as [d1 e1|p1|a1 t1], c2 as [d2 e2|p2|a2 t2]; cbn [enc digits parts] in *;
    rewrite <- !app_assoc in E; try (lits; discriminate E).
  - apply app_inv_head in E. destruct (nosplit d1 d2 (e1 ++ r1) (e2 ++ r2)) as (-> & E'); auto. inversion P1; subst. inversion P2; subst.
    destruct (R e1 e2 r1 r2) as (-> & ->); auto. rewrite !app_length in *. cbn in LN. lia.
  - apply app_inv_head in E. inversion P1; subst. inversion P2; subst.
    destruct (R p1 p2 r1 r2) as (-> & ->); auto. rewrite !app_length in *. cbn in LN. lia.
  - apply app_inv_head in E. inversion P1; subst. inversion P2; subst.
    destruct (pieces_inj len R a1 a2 0 t1 t2 r1 r2) as (-> & -> & ->); auto. rewrite !app_length in *. cbn in *. lia.
Qed.
Lemma all_readable : forall len, readable len.
Proof.
  induction len as [|len IH]; intros n1 n2 r1 r2 LN N1 N2 S1 S2 E.
  - destruct n1; [|cbn in LN; lia]. destruct r1; [|cbn in LN; lia]. cbn in E. destruct n2; [|discriminate]. auto.
  - inversion N1 as [? B1|c1 D1 P1]; subst; inversion N2 as [? B2|c2 D2 P2]; subst.
    + apply base_base; auto.
    + exfalso. eapply base_enc; [exact B1|exact S1|exact E].
    + exfalso. eapply base_enc; [exact B2|exact S2|symmetry; exact E].
    + destruct (enc_inj len IH c1 c2 r1 r2) as (-> & ->); auto.
Qed.
Theorem enc_injective c1 c2 : digits c1 -> digits c2 -> Forall N (parts c1) -> Forall N (parts c2) -> enc c1 = enc c2 -> c1 = c2.
Proof.
  intros D1 D2 P1 P2 E. assert (S0 : starts []) by (left; auto).
  destruct (enc_inj _ (all_readable (length (enc c1 ++ []))) c1 c2 [] []) as (-> & _); auto. rewrite !app_nil_r. auto.
Qed.

(* ---- numbers ---- *)
Lemma L_inj a b : L a = L b -> a = b.
Proof. intros E. rewrite <- (string_of_list_ascii_of_string a), <- (string_of_list_ascii_of_string b). f_equal. exact E. Qed.
Lemma dec_inj a b : 0 <= a -> 0 <= b -> dec a = dec b -> a = b.
Proof.
  intros A B E. apply L_inj in E.
  assert (NN : forall n, N.to_uint n <> Decimal.Nil) by (intros n; destruct n as [|p]; [easy|]; apply DecimalPos.Unsigned.to_uint_nonnil).
  pose proof (f_equal NilZero.uint_of_string E) as E2. rewrite !NilZero.usu in E2 by apply NN. injection E2 as E2. apply DecimalN.Unsigned.to_uint_inj in E2. lia.
Qed.
Lemma uint_digits u : ~ In "_"%char (L (NilEmpty.string_of_uint u)).
Proof. induction u; cbn; intros H; try (destruct H as [H|H]; [discriminate|auto]); auto. Qed.
Lemma dec_digits a : ~ In "_"%char (dec a).
Proof. unfold dec, NilZero.string_of_uint. destruct (N.to_uint _); try apply uint_digits. cbn. intros [H|[]]; discriminate. Qed.
Lemma dec_nonnil a : dec a <> [].
Proof. unfold dec, NilZero.string_of_uint. destruct (N.to_uint _); cbn; discriminate. Qed.
Definition dlen (n : Z) : str := if n =? UNBLEN then [] else decd n.
Lemma dlen_digits n : 0 <= n <= UNBLEN -> ~ In "_"%char (dlen n).
Proof. unfold dlen, UNBLEN. intros. destruct (_ =? _); [cbn; auto|]. unfold decd. change (2 ^ 31) with 2147483648. destruct (_ <? _) eqn:E; [|lia]. apply dec_digits. Qed.
Lemma dlen_inj a b : 0 <= a <= UNBLEN -> 0 <= b <= UNBLEN -> dlen a = dlen b -> a = b.
Proof.
  unfold dlen, UNBLEN, decd. change (2 ^ 31) with 2147483648. intros A B E.
  destruct (a <? 2147483648) eqn:E1; [|lia]. destruct (b <? 2147483648) eqn:E2; [|lia].
  destruct (a =? _) eqn:E3, (b =? _) eqn:E4; try lia.
  - symmetry in E. apply dec_nonnil in E. easy.
  - apply dec_nonnil in E. easy.
  - apply dec_inj in E; lia.
Qed.

(* ---- strings ---- *)
Lemma eqs_eq a b : eqs a b = true <-> a = b.
Proof.
  revert b. induction a as [|x a IH]; intros [|y b]; cbn; split; try easy.
  - intros H. apply andb_true_iff in H. destruct H as (H1 & H2). apply Ascii.eqb_eq in H1. apply IH in H2. congruence.
  - injection 1 as -> ->. rewrite Ascii.eqb_refl. apply IH. auto.
Qed.
Lemma pre_app p s : pre p (p ++ s) = true.
Proof. induction p as [|c p IH]; cbn; auto. rewrite Ascii.eqb_refl. auto. Qed.
