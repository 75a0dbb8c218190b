(* C40: address lists. *)
From Verif Require Import Base Addrlist_model.

(* Specification: the one-based position of the first occurrence, 0 if absent. *)
Definition first_position (x : Z) (xs : list Z) (r : Z) : Prop :=
  (r = 0 /\ ~ In x xs) \/
  (exists pre post, xs = pre ++ x :: post /\ ~ In x pre /\ r = 1 + Z.of_nat (length pre)).

(* Representation: [l] holds exactly [xs] in order *)
Definition holds (l : alist) (xs : list Z) : Prop :=
  count l = Z.of_nat (length xs) /\ allocsz l = Z.of_nat (length (store l)) /\
  firstn (length xs) (store l) = map Some xs /\
  exists k, 1 <= k <= 32 /\ allocsz l = 2 ^ k - 2.

Lemma write_ok (b : list (option Z)) ys x :
  firstn (length ys) b = map Some ys -> (length ys < length b)%nat ->
  exists b', write b (Z.of_nat (length ys)) x = Ok b' /\ length b' = length b /\
             firstn (length (ys ++ [x])) b' = map Some (ys ++ [x]).
Proof.
  intros H L. unfold write.
  replace ((0 <=? Z.of_nat (length ys)) && (Z.of_nat (length ys) <? Z.of_nat (length b))) with true
    by (symmetry; apply andb_true_iff; split; [apply Z.leb_le|apply Z.ltb_lt]; lia).
  rewrite Nat2Z.id, H. eexists. split; [reflexivity|]. split.
  - rewrite app_length, map_length. cbn [length]. rewrite skipn_length. lia.
  - rewrite app_length, map_app. cbn [length map].
    rewrite firstn_app, map_length.
    rewrite firstn_all2 by (rewrite map_length; lia).
    replace (length ys + 1 - length ys)%nat with 1%nat by lia. reflexivity.
Qed.

Lemma grow_size k : 1 <= k < 32 ->
  (2 * ((2 ^ k - 2 + 1) mod W32)) mod W32 = 2 ^ (k + 1) - 2.
Proof.
  intro H. assert (P : 2 ^ k <= 2 ^ 31) by (apply Z.pow_le_mono_r; lia).
  assert (Q : 2 <= 2 ^ k) by (change 2 with (2 ^ 1) at 1; apply Z.pow_le_mono_r; lia).
  unfold W32. change 4294967296 with (2 * 2 ^ 31).
  rewrite (Z.mod_small (2 ^ k - 2 + 1)) by lia. rewrite Z.mod_small by lia.
  replace (k + 1) with (Z.succ k) by lia. rewrite Z.pow_succ_r by lia. lia.
Qed.

Lemma pow_inj_bound k m : 1 <= k <= 32 -> 2 ^ k - 2 = m -> m < 2 ^ 32 - 2 -> k < 32.
Proof. intros H E L. destruct (Z.eq_dec k 32) as [->|]; lia. Qed.

Lemma add_holds l xs x :
  holds l xs -> Z.of_nat (length xs) < 2 ^ 32 - 2 ->
  exists l', add l x = Ok l' /\ holds l' (xs ++ [x]).
Proof.
  intros (C & A & F & k & Hk & E) Hn. unfold add. rewrite C, A.
  destruct (Z.eqb_spec (Z.of_nat (length xs)) (Z.of_nat (length (store l)))) as [Q|Q]; cbn [count store allocsz].
  - assert (K : k < 32) by (apply (pow_inj_bound k (allocsz l)); lia).
    rewrite <- A, E, grow_size by lia. set (n := 2 ^ (k + 1) - 2).
    assert (Hn2 : 2 * allocsz l + 2 = n).
    { unfold n. rewrite E. replace (k + 1) with (Z.succ k) by lia. rewrite Z.pow_succ_r by lia. lia. }
    assert (N : n <= 2 ^ 32 - 2).
    { unfold n. assert (2 ^ (k + 1) <= 2 ^ 32) by (apply Z.pow_le_mono_r; lia). lia. }
    assert (F2 : firstn (length xs) (realloc (store l) n) = map Some xs).
    { unfold realloc. rewrite (firstn_all2 (store l)) by lia.
      rewrite firstn_app. replace (length xs - length (store l))%nat with 0%nat by lia.
      cbn. rewrite app_nil_r. exact F. }
    assert (L2 : length (realloc (store l) n) = Z.to_nat n).
    { unfold realloc. rewrite app_length, repeat_length, firstn_length. lia. }
    destruct (write_ok (realloc (store l) n) xs x F2) as (b' & W & LB & FB); [lia|].
    rewrite W. cbn [bind count store allocsz]. eexists. split; [reflexivity|].
    unfold holds. cbn [count store allocsz]. rewrite app_length. cbn [length].
    assert (W32 = 2 ^ 32) by reflexivity.
    split; [rewrite Z.mod_small by lia; lia|]. split; [lia|].
    split; [rewrite app_length in FB; exact FB|]. exists (k + 1). split; [lia|reflexivity].
  - assert (LL : (length xs <= length (store l))%nat).
    { assert (X := firstn_length (length xs) (store l)). rewrite F, map_length in X. lia. }
    destruct (write_ok (store l) xs x F) as (b' & W & LB & FB); [lia|].
    rewrite C, W. cbn [bind]. eexists. split; [reflexivity|].
    unfold holds. cbn [count store allocsz]. rewrite app_length. cbn [length].
    assert (W32 = 2 ^ 32) by reflexivity.
    split; [rewrite Z.mod_small by lia; lia|]. split; [lia|].
    split; [rewrite app_length in FB; exact FB|]. exists k. split; [lia|exact E].
Qed.

Lemma adds_holds xs : forall l ys,
  holds l ys -> Z.of_nat (length ys) + Z.of_nat (length xs) <= 2 ^ 32 - 2 ->
  exists l', adds l xs = Ok l' /\ holds l' (ys ++ xs).
Proof.
  induction xs as [|x xs IH]; intros l ys H L; cbn [adds].
  - exists l. rewrite app_nil_r. auto.
  - cbn [length] in L. destruct (add_holds l ys x H) as (l1 & E & H1); [lia|].
    rewrite E. cbn [bind]. destruct (IH l1 _ H1) as (l2 & E2 & H2).
    { rewrite app_length. cbn [length]. lia. }
    exists l2. split; [exact E2|]. rewrite <- app_assoc in H2. exact H2.
Qed.

Lemma empty_holds : holds empty [].
Proof. repeat split. exists 1. split; [lia|reflexivity]. Qed.

Lemma scan_ok b x : forall ys pre,
  firstn (length (pre ++ ys)) b = map Some (pre ++ ys) -> ~ In x pre ->
  exists r, scan b x (Z.of_nat (length pre)) (length ys) = Ok r /\ first_position x (pre ++ ys) r.
Proof.
  induction ys as [|y ys IH]; intros pre H N; cbn [scan length].
  - exists 0. split; [reflexivity|]. left. rewrite app_nil_r. auto.
  - rewrite Nat2Z.id.
    assert (E : nth_error b (length pre) = Some (Some y)).
    { assert (X : nth_error (firstn (length (pre ++ y :: ys)) b) (length pre) = Some (Some y)).
      { rewrite H, map_app. rewrite nth_error_app2 by (rewrite map_length; lia).
        rewrite map_length, Nat.sub_diag. reflexivity. }
      rewrite <- (firstn_skipn (length (pre ++ y :: ys)) b).
      rewrite nth_error_app1; [exact X|]. apply nth_error_Some. congruence. }
    rewrite E. destruct (Z.eqb_spec y x) as [->|D].
    + eexists. split; [reflexivity|]. right. exists pre, ys. auto.
    + replace (Z.of_nat (length pre) + 1) with (Z.of_nat (length (pre ++ [y])))
        by (rewrite app_length; cbn; lia).
      replace (pre ++ y :: ys) with ((pre ++ [y]) ++ ys) in * by (rewrite <- app_assoc; reflexivity).
      apply IH; [exact H|]. rewrite in_app_iff. intros [?|[?|[]]]; auto.
Qed.

(* For every sequence of fewer than 2^32-1 additions: no write falls outside the storage,
   no read sees unwritten storage, and membership is the position of first addition. *)
Theorem addrlist_remembers_partial : forall xs,
  Z.of_nat (length xs) <= 2 ^ 32 - 2 ->
  exists l, adds empty xs = Ok l /\ count l = Z.of_nat (length xs) /\
    count l <= allocsz l <= 2 * count l + 2 /\ Z.of_nat (length (store l)) = allocsz l /\
    forall x, exists r, contains l x = Ok r /\ first_position x xs r.
Proof.
  intros xs L. destruct (adds_holds xs empty [] empty_holds) as (l & E & H); [cbn; lia|].
  cbn [app] in H. exists l. split; [exact E|].
  assert (B : allocsz l <= 2 * count l + 2).
  { assert (G : forall ys l0, holds l0 ys -> allocsz l0 <= 2 * count l0 + 2 ->
       Z.of_nat (length ys) + Z.of_nat (length xs) <= 2 ^ 32 - 2 ->
       adds l0 xs = Ok l -> allocsz l <= 2 * count l + 2).
    { clear. induction xs as [|x xs IH]; intros ys l0 H0 B0 L0 E0; cbn [adds] in E0.
      - injection E0 as <-. exact B0.
      - cbn [length] in L0. destruct (add_holds l0 ys x H0) as (l1 & E1 & H1); [lia|].
        rewrite E1 in E0. cbn [bind] in E0.
        apply (IH (ys ++ [x]) l1); auto.
        + destruct H1 as (C1 & _). destruct H0 as (C0 & A0 & F0 & k & Hk & K).
          rewrite app_length in C1. cbn [length] in C1.
          unfold add in E1.
          destruct (Z.eqb_spec (count l0) (allocsz l0)) as [Q|Q]; cbn [count store allocsz] in E1.
          * destruct (write (realloc (store l0) _) _ _); cbn [bind] in E1; try discriminate.
            assert (E2 : forall a b : alist, Ok a = Ok b -> b = a) by congruence.
            apply E2 in E1. subst l1. cbn [count allocsz] in *.
            rewrite K, grow_size by (assert (k < 32) by (apply (pow_inj_bound k (allocsz l0)); lia); lia).
            replace (k + 1) with (Z.succ k) by lia. rewrite Z.pow_succ_r by lia. lia.
          * destruct (write _ _ _); cbn [bind] in E1; try discriminate.
            injection E1 as <-. cbn [count allocsz] in *. lia.
        + rewrite app_length. cbn [length]. lia. }
    apply (G [] empty empty_holds); [cbn; lia|cbn [length]; lia|exact E]. }
  destruct H as (C & A & F & _).
  assert (LL : (length xs <= length (store l))%nat).
  { assert (X := firstn_length (length xs) (store l)). rewrite F, map_length in X. lia. }
  split; [exact C|]. split; [lia|]. split; [lia|].
  intro x. unfold contains. rewrite C, Nat2Z.id.
  apply (scan_ok (store l) x xs []); [exact F|auto].
Qed.

(* One addition more and the doubled capacity wraps to itself, so the code writes past the
   end of the storage. *)
Lemma addrlist_overflow_ub : forall xs x,
  Z.of_nat (length xs) = 2 ^ 32 - 2 -> adds empty (xs ++ [x]) = UB.
Proof.
  intros xs x L. destruct (adds_holds xs empty [] empty_holds) as (l & E & H); [cbn [length]; lia|].
  cbn [app] in H.
  assert (A : adds empty (xs ++ [x]) = adds l [x]).
  { revert E. generalize empty. clear. induction xs as [|y xs IH]; intros l0 E; cbn [adds app] in *.
    - injection E as ->. reflexivity.
    - destruct (add l0 y); cbn [bind] in *; try discriminate. apply IH, E. }
  rewrite A. cbn [adds]. destruct H as (C & Al & F & k & Hk & K).
  assert (LL : (length xs <= length (store l))%nat).
  { assert (X := firstn_length (length xs) (store l)). rewrite F, map_length in X. lia. }
  assert (P : 2 ^ k <= 2 ^ 32) by (apply Z.pow_le_mono_r; lia).
  assert (AE : allocsz l = 2 ^ 32 - 2) by lia.
  unfold add. rewrite C, L, AE, Z.eqb_refl. cbn [count store allocsz].
  assert (N : (2 * ((2 ^ 32 - 2 + 1) mod W32)) mod W32 = 2 ^ 32 - 2) by reflexivity.
  rewrite N. unfold write.
  replace (Z.of_nat (length (realloc (store l) (2 ^ 32 - 2)))) with (2 ^ 32 - 2).
  - rewrite Z.ltb_irrefl, andb_false_r. reflexivity.
  - unfold realloc. rewrite app_length, repeat_length, firstn_length. lia.
Qed.

Theorem addrlist_overflow_refuted : exists xs x, adds empty (xs ++ [x]) = UB.
Proof.
  exists (repeat 5 (Z.to_nat (2 ^ 32 - 2))), 6. apply addrlist_overflow_ub.
  rewrite repeat_length. lia.
Qed.

Module Addrlist_ex.
  Example three : exists l, adds empty [10; 20; 10] = Ok l /\
    contains l 10 = Ok 1 /\ contains l 20 = Ok 2 /\ contains l 30 = Ok 0 /\ allocsz l = 6.
  Proof. eexists. split; [vm_compute; reflexivity|]. vm_compute. auto. Qed.
End Addrlist_ex.

Print Assumptions addrlist_remembers_partial.
Print Assumptions addrlist_overflow_refuted.
