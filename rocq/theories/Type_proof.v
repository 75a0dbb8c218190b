From Verif Require Import Base Type_model Type_spec.
From Coq Require Import Sorting.Sorted.

Lemma skipn_in (A : Type) i (l : list A) x : In x (skipn i l) -> In x l.
Proof. intro H. rewrite <- (firstn_skipn i l). apply in_or_app. right. exact H. Qed.

Definition offat (ms : list (Z * ty)) (i : nat) : Z := fst (nth i ms (0, TLeaf 0 0)).

Lemma nth_off ms i off m : nth_error ms i = Some (off, m) -> offat ms i = off /\ (i < length ms)%nat.
Proof.
  intro H. split.
  - unfold offat. rewrite (nth_error_nth _ _ _ H). reflexivity.
  - apply nth_error_Some. congruence.
Qed.
Lemma off_nth ms i : (i < length ms)%nat -> exists m, nth_error ms i = Some (offat ms i, m).
Proof.
  intro H. unfold offat. rewrite (nth_error_nth' ms (0, TLeaf 0 0) H).
  destruct (nth i ms (0, TLeaf 0 0)) as [o m]. exists m. reflexivity.
Qed.

Lemma sorted_le ms : sorted ms -> forall i j, (i <= j < length ms)%nat -> offat ms i <= offat ms j.
Proof.
  induction ms as [|[o m] [|[o' m'] ms] IH]; intros H i j Hij; cbn [length] in Hij; [lia| |].
  - assert (i = 0%nat) by lia. assert (j = 0%nat) by lia. subst. lia.
  - destruct H as [H1 H2]. specialize (IH H2). cbn [length] in IH.
    destruct i as [|i], j as [|j]; try lia.
    + specialize (IH 0%nat j ltac:(lia)). unfold offat in *. cbn [nth fst] in *. lia.
    + apply (IH i j). lia.
Qed.

(* ---- bisection ---- *)
Lemma bisect_total ms target : forall fuel lo hi,
  (lo <= hi <= length ms)%nat -> (hi - lo < fuel)%nat ->
  exists lo' hi', bisect fuel ms target lo hi = Ok (lo', hi') /\
    (lo <= lo')%nat /\ (hi' <= hi)%nat /\
    ((lo < hi)%nat -> hi' = (lo' + 1)%nat) /\ (lo = hi -> lo' = lo /\ hi' = hi) /\
    (lo' = lo \/ offat ms lo' <= target) /\ (hi' = hi \/ target < offat ms hi').
Proof.
  induction fuel as [|f IH]; intros lo hi H F; [lia|]. cbn [bisect].
  destruct (Nat.ltb_spec (lo + 1) hi) as [L|L].
  - set (mid := Nat.div2 (hi + lo)).
    assert (M : (lo < mid < hi)%nat).
    { unfold mid. rewrite Nat.div2_div. split.
      - apply Nat.div_le_lower_bound; lia.
      - apply Nat.div_lt_upper_bound; lia. }
    destruct (off_nth ms mid ltac:(lia)) as (m & E). rewrite E.
    rewrite Z.gtb_ltb. destruct (Z.ltb_spec target (offat ms mid)) as [K|K].
    + destruct (IH lo mid ltac:(lia) ltac:(lia)) as (lo' & hi' & E1 & A & B & C & D & G & K1).
      exists lo', hi'. split; [exact E1|]. split; [lia|]. split; [lia|]. split; [intro; apply C; lia|].
      split; [intro; lia|]. split; [exact G|]. right. destruct K1 as [->|K1]; assumption.
    + destruct (IH mid hi ltac:(lia) ltac:(lia)) as (lo' & hi' & E1 & A & B & C & D & G & K1).
      exists lo', hi'. split; [exact E1|]. split; [lia|]. split; [lia|]. split; [intro; apply C; lia|].
      split; [intro; lia|]. split; [|exact K1]. right. destruct G as [->|G]; assumption.
  - exists lo, hi. split; [reflexivity|]. split; [lia|]. split; [lia|]. split; [intro; lia|].
    split; [auto|]. auto.
Qed.

Lemma back_up_spec ms off : forall lo,
  (lo < length ms)%nat -> offat ms lo = off ->
  (back_up ms off lo <= lo)%nat /\
  (forall j, (back_up ms off lo <= j <= lo)%nat -> offat ms j = off) /\
  (back_up ms off lo = 0%nat \/ offat ms (back_up ms off lo - 1) <> off).
Proof.
  induction lo as [|k IH]; intros L E; cbn [back_up].
  - split; [lia|]. split; [|left; reflexivity]. intros j Hj. assert (j = 0%nat) by lia. subst. reflexivity.
  - destruct (off_nth ms k ltac:(lia)) as (m & Ek). rewrite Ek.
    destruct (Z.eqb_spec (offat ms k) off) as [Q|Q].
    + destruct (IH ltac:(lia) Q) as (A & B & C). split; [lia|]. split; [|exact C].
      intros j Hj. destruct (Nat.eq_dec j (S k)) as [->|]; [exact E|]. apply B. lia.
    + split; [lia|]. split.
      * intros j Hj. assert (j = S k) by lia. subst j. exact E.
      * right. replace (S k - 1)%nat with k by lia. exact Q.
Qed.

(* what nearest computes, whatever the order of the members *)
Lemma nearest_total ms target :
  exists r, nearest ms target = Ok r /\
  match r with
  | None => ms = [] \/ target < offat ms 0
  | Some (i, off) => (i < length ms)%nat /\ offat ms i = off /\ off <= target
  end.
Proof.
  unfold nearest.
  destruct (bisect_total ms target (S (length ms)) 0 (length ms) ltac:(lia) ltac:(lia))
    as (lo & hi & -> & A & B & C & D & G & K). cbn [bind].
  destruct (Nat.eqb_spec (lo + 1) hi) as [Q|Q].
  - destruct (off_nth ms lo ltac:(lia)) as (m & E). rewrite E.
    rewrite Z.gtb_ltb. destruct (Z.ltb_spec target (offat ms lo)) as [L|L].
    + eexists; split; [reflexivity|]. right. destruct G as [->|G]; [exact L|lia].
    + eexists; split; [reflexivity|].
      destruct (back_up_spec ms (offat ms lo) lo ltac:(lia) eq_refl) as (X & Y & W).
      split; [lia|]. split; [apply Y; lia|exact L].
  - eexists; split; [reflexivity|]. left. destruct ms; [reflexivity|].
    exfalso. cbn [length] in *. apply Q. symmetry. apply C. lia.
Qed.

(* with sorted members *)
Lemma nearest_sorted ms target : sorted ms ->
  exists r, nearest ms target = Ok r /\
  match r with
  | None => forall off m, In (off, m) ms -> target < off
  | Some (i, off) => (i < length ms)%nat /\ offat ms i = off /\ off <= target /\
      (forall j, (j < i)%nat -> offat ms j < off) /\
      (forall j, (i <= j < length ms)%nat -> offat ms j = off \/ target < offat ms j)
  end.
Proof.
  intro S. unfold nearest.
  destruct (bisect_total ms target (Datatypes.S (length ms)) 0 (length ms) ltac:(lia) ltac:(lia))
    as (lo & hi & -> & A & B & C & D & G & K). cbn [bind].
  assert (SL := sorted_le ms S).
  destruct (Nat.eqb_spec (lo + 1) hi) as [Q|Q].
  - destruct (off_nth ms lo ltac:(lia)) as (m & E). rewrite E.
    rewrite Z.gtb_ltb. destruct (Z.ltb_spec target (offat ms lo)) as [L|L].
    + eexists; split; [reflexivity|]. intros off m0 Hin.
      destruct G as [->|G]; [|lia].
      destruct (In_nth_error _ _ Hin) as (j & Ej). destruct (nth_off _ _ _ _ Ej) as [<- Lj].
      specialize (SL 0%nat j ltac:(lia)). lia.
    + eexists; split; [reflexivity|].
      destruct (back_up_spec ms (offat ms lo) lo ltac:(lia) eq_refl) as (X & Y & W).
      set (i := back_up ms (offat ms lo) lo) in *.
      split; [lia|]. split; [apply Y; lia|]. split; [exact L|]. split.
      * intros j Hj. destruct W as [W|W]; [lia|].
        assert (P1 := SL j (i - 1)%nat ltac:(lia)). assert (P2 := SL (i - 1)%nat i ltac:(lia)).
        assert (P3 := Y i ltac:(lia)). lia.
      * intros j Hj. destruct (Nat.le_gt_cases j lo) as [J|J]; [left; apply Y; lia|].
        right. destruct K as [->|K]; [lia|].
        assert (P := SL hi j ltac:(lia)). lia.
  - eexists; split; [reflexivity|]. destruct ms as [|p ms]; [intros ? ? []|].
    exfalso. cbn [length] in *. apply Q. symmetry. apply C. lia.
Qed.

(* ---- height ---- *)
Lemma height_memb id size ms off m : In (off, m) ms -> (height m < height (TComp id size ms))%nat.
Proof.
  cbn [height]. induction ms as [|[o t] ms IH]; intro H; [destruct H|].
  cbn [fold_right snd]. destruct H as [H|H]; [injection H as -> ->; lia|specialize (IH H); lia].
Qed.
Lemma height_pos t : (0 < height t)%nat.
Proof. destruct t; cbn; lia. Qed.

(* ---- first_spanning is total ---- *)
Lemma first_spanning_total t target :
  exists r, first_spanning t target = Ok r /\
  forall i m o, r = Some (i, m, o) -> (height m < height t)%nat.
Proof.
  destruct t as [id size|id size len e|id size ms]; cbn [first_spanning members].
  - destruct (nearest_total [] target) as (r & -> & H). cbn [bind].
    destruct r as [[i off]|]; [destruct H as [H _]; cbn in H; lia|].
    eexists; split; [reflexivity|]. discriminate.
  - destruct (_ && _); eexists; (split; [reflexivity|]); [|discriminate].
    intros i m o E. injection E as <- <- <-. cbn. lia.
  - destruct (nearest_total ms target) as (r & -> & H). cbn [bind].
    destruct r as [[i off]|].
    + destruct H as (H & _). destruct (off_nth ms i H) as (m & E). rewrite E.
      eexists; split; [reflexivity|]. intros i' m' o' Q. injection Q as <- <- <-.
      apply (height_memb id size ms (offat ms i)). apply (nth_error_In _ _ E).
    + eexists; split; [reflexivity|]. discriminate.
Qed.

(* ---- soundness ---- *)
Lemma try_all_true rec ms off s :
  try_all rec ms off s = Ok true -> exists m, In (off, m) ms /\ rec m s = Ok true.
Proof.
  induction ms as [|[o m] ms IH]; cbn [try_all]; [discriminate|].
  destruct (Z.eqb_spec o off) as [->|N]; [|discriminate].
  destruct (rec m s) as [[]| | |] eqn:E; cbn [bind]; try discriminate.
  - intros _. exists m. split; [left; reflexivity|exact E].
  - intro H. destruct (IH H) as (m' & A & B). exists m'. split; [right; exact A|exact B].
Qed.

Lemma u32_small x : 0 <= x < 2 ^ 32 -> u32 x = x.
Proof. apply Z.mod_small. Qed.

Lemma first_spanning_sound t target i m o :
  unsigned t -> 0 <= target < 2 ^ 32 -> first_spanning t target = Ok (Some (i, m, o)) ->
  unsigned m /\ 0 <= o < 2 ^ 32 /\
  (forall o' t', sub m o' t' -> sub t (target - o + o') t') /\
  match t with
  | TComp _ _ ms => exists off, nth_error ms i = Some (off, m) /\ off + o = target /\ 0 <= off
  | _ => True
  end.
Proof.
  intros U T.
  destruct t as [id size|id size len e|id size ms]; cbn [first_spanning members].
  - destruct (nearest_total [] target) as (r & -> & H). cbn [bind].
    destruct r as [[? ?]|]; [destruct H as [H _]; cbn in H; lia|discriminate].
  - destruct (Z.eqb_spec (tsize e) 0) as [E|E]; cbn [negb andb]; [discriminate|].
    destruct (Z.gtb_spec len (target / tsize e)) as [L|L]; [|discriminate].
    intro Q. injection Q as <- <- <-. inversion U; subst.
    assert (S : 0 < tsize e).
    { inversion H5; subst; cbn in *; lia. }
    assert (M := Z.mod_pos_bound target (tsize e) S).
    assert (M2 := Z.mod_le target (tsize e) ltac:(lia) S).
    split; [assumption|]. split; [lia|]. split; [|exact I].
    intros o' t' Hs. replace (target - target mod tsize e + o') with (target / tsize e * tsize e + o')
      by (assert (D := Z.div_mod target (tsize e) E); lia).
    apply sub_elem; [|exact Hs]. split; [apply Z.div_pos; lia|lia].
  - destruct (nearest_total ms target) as (r & -> & H). cbn [bind].
    destruct r as [[j off]|]; [|discriminate].
    destruct H as (H & Eo & Le). destruct (off_nth ms j H) as (m' & E). rewrite E.
    intro Q. injection Q as <- <- <-. inversion U; subst.
    assert (I := nth_error_In _ _ E). destruct (H4 _ _ I) as [P1 P2].
    rewrite u32_small by lia.
    split; [exact P2|]. split; [lia|]. split.
    + intros o' t' Hs. replace (target - (target - offat ms j) + o') with (offat ms j + o') by lia.
      apply sub_memb with (m := m'); assumption.
    + exists (offat ms j). split; [exact E|]. lia.
Qed.

Lemma find_matching_sound fuel : forall target t u,
  unsigned t -> 0 <= target < 2 ^ 32 ->
  find_matching fuel target t u = Ok true ->
  exists t', sub t target t' /\ match u with None => True | Some i => tid t' = i end.
Proof.
  induction fuel as [|f IH]; intros target t u U T; cbn [find_matching]; [discriminate|].
  destruct ((target =? 0) && match u with None => true | Some i => tid t =? i end) eqn:C.
  - intros _. apply andb_true_iff in C. destruct C as [C1 C2]. apply Z.eqb_eq in C1. subst target.
    exists t. split; [constructor|]. destruct u; [apply Z.eqb_eq, C2|exact I].
  - clear C. destruct (first_spanning t target) as [[[[i m] o]|]| | |] eqn:E; cbn [bind]; try discriminate.
    destruct (first_spanning_sound t target i m o U T E) as (Um & To & Hs & Hc).
    destruct t as [id size|id size len e|id size ms].
    + intro H. destruct (IH o m u Um To H) as (t' & S & Q).
      exists t'. split; [|exact Q]. specialize (Hs o t' S). replace (target - o + o) with target in Hs by lia. exact Hs.
    + intro H. destruct (IH o m u Um To H) as (t' & S & Q).
      exists t'. split; [|exact Q]. specialize (Hs o t' S). replace (target - o + o) with target in Hs by lia. exact Hs.
    + destruct Hc as (off & En & Eo & Po). rewrite En. intro H.
      apply try_all_true in H. destruct H as (m' & Hin & H).
      assert (Hin' : In (off, m') ms).
      { apply (skipn_in _ i ms), Hin. }
      inversion U; subst. destruct (H4 _ _ Hin') as [_ Um'].
      destruct (IH o m' u Um' To H) as (t' & S & Q).
      exists t'. split; [|exact Q]. apply sub_memb with (m := m'); assumption.
Qed.

(* ---- totality ---- *)
Lemma try_all_total rec ms off s :
  (forall m, In (off, m) ms -> exists b, rec m s = Ok b) -> exists b, try_all rec ms off s = Ok b.
Proof.
  induction ms as [|[o m] ms IH]; intro H; cbn [try_all]; [eauto|].
  destruct (Z.eqb_spec o off) as [->|N]; [|eauto].
  destruct (H m (or_introl eq_refl)) as ([] & ->); cbn [bind]; [eauto|].
  apply IH. intros m' Hm. apply H. right. exact Hm.
Qed.

Lemma find_matching_total fuel : forall target t u,
  (height t <= fuel)%nat -> exists b, find_matching fuel target t u = Ok b.
Proof.
  induction fuel as [|f IH]; intros target t u H; [assert (X := height_pos t); lia|].
  cbn [find_matching]. destruct (_ && _); [eauto|].
  destruct (first_spanning_total t target) as (r & E & Hr). rewrite E. cbn [bind].
  destruct r as [[[i m] o]|]; [|eauto]. specialize (Hr i m o eq_refl).
  destruct t as [id size|id size len e|id size ms]; try (apply IH; lia).
  cbn [first_spanning members] in E.
  destruct (nearest_total ms target) as (r' & E' & H'). rewrite E' in E. cbn [bind] in E.
  destruct r' as [[j off]|]; [|discriminate].
  destruct H' as (L & _). destruct (off_nth ms j L) as (m0 & En). rewrite En in E.
  injection E as -> -> _. rewrite En. apply try_all_total.
  intros m' Hm. apply IH.
  assert (Hin : In (offat ms i, m') ms).
  { apply (skipn_in _ i ms), Hm. }
  assert (X := height_memb id size ms _ _ Hin). lia.
Qed.

(* ---- completeness ---- *)
Lemma laid_arr id size len e : laid_out (TArr id size len e) ->
  0 <= len /\ len * tsize e <= size /\ laid_out e.
Proof. intro H. inversion H; subst. auto. Qed.
Lemma laid_comp id size ms : laid_out (TComp id size ms) ->
  0 <= size /\ sorted ms /\
  (forall off m, In (off, m) ms -> 0 <= off /\ off + tsize m <= size /\ laid_out m) /\
  (forall off m off' m', In (off, m) ms -> In (off', m') ms -> off < off' -> off + tsize m <= off').
Proof. intro H. inversion H; subst. auto. Qed.

Lemma laid_size t : laid_out t -> 0 <= tsize t.
Proof.
  induction 1 as [| id size len e H1 H2 H3 IH |]; cbn [tsize]; auto. nia.
Qed.
Lemma sub_bounds t o t' : sub t o t' -> laid_out t -> 0 <= o /\ o + tsize t' <= tsize t.
Proof.
  induction 1 as [t|id size len e i o t' Hi _ IH|id size ms off m o t' Hin _ IH]; intro L.
  - lia.
  - destruct (laid_arr _ _ _ _ L) as (L1 & L2 & L3). destruct (IH L3) as [A B]. cbn [tsize].
    assert (P := laid_size e L3). split; nia.
  - destruct (laid_comp _ _ _ L) as (_ & _ & L1 & _). destruct (L1 _ _ Hin) as (A & B & C). destruct (IH C) as [D E].
    cbn [tsize]. lia.
Qed.

Lemma try_all_complete rec ms off s m : sorted ms ->
  In (off, m) ms -> (forall o x, In (o, x) ms -> off <= o) -> rec m s = Ok true ->
  (forall x, In (off, x) ms -> exists b, rec x s = Ok b) ->
  try_all rec ms off s = Ok true.
Proof.
  induction ms as [|[o x] ms IH]; intros S Hin Hmin R Tot; [destruct Hin|]. cbn [try_all].
  assert (E : o = off).
  { destruct Hin as [Q|Q]; [congruence|].
    destruct (In_nth_error _ _ Q) as (j & Ej). destruct (nth_off _ _ _ _ Ej) as [Oj Lj].
    assert (P := sorted_le _ S 0%nat (Datatypes.S j) ltac:(cbn [length]; lia)).
    assert (M := Hmin o x (or_introl eq_refl)). unfold offat in *. cbn [nth fst] in *. lia. }
  subst o. rewrite Z.eqb_refl.
  destruct Hin as [Q|Q].
  - injection Q as ->. rewrite R. reflexivity.
  - destruct (Tot x (or_introl eq_refl)) as ([] & ->); cbn [bind]; [reflexivity|].
    apply IH; auto.
    + destruct ms as [|[? ?] ?]; [exact I|]. destruct S as [_ S]. exact S.
    + intros o' x' H'. apply (Hmin o' x'). right. exact H'.
    + intros x' H'. apply Tot. right. exact H'.
Qed.

Lemma sorted_skipn ms : forall i, sorted ms -> sorted (skipn i ms).
Proof.
  induction ms as [|[o m] ms IH]; intros [|i] S; [exact I|exact I|exact S|]. cbn [skipn].
  apply IH. destruct ms as [|[? ?] ?]; [exact I|]. destruct S as [_ S]. exact S.
Qed.

Lemma offat_skipn ms i j : offat (skipn i ms) j = offat ms (i + j).
Proof.
  unfold offat. revert i. induction ms as [|p ms IH]; intros [|i]; cbn [skipn]; [reflexivity| |reflexivity|].
  - destruct j; reflexivity.
  - rewrite IH. reflexivity.
Qed.

Lemma in_skipn_nth ms i (x : Z * ty) : In x (skipn i ms) -> exists j, nth_error ms (i + j) = Some x.
Proof.
  intro H. destruct (In_nth_error _ _ H) as (j & E). exists j. revert i H E.
  induction ms as [|p ms IH]; intros [|i] H E; cbn [skipn] in *; [exact E| |exact E|].
  - destruct j; discriminate.
  - cbn. apply IH; assumption.
Qed.
Lemma nth_in_skipn ms : forall i j (x : Z * ty), (i <= j)%nat -> nth_error ms j = Some x -> In x (skipn i ms).
Proof.
  induction ms as [|p ms IH]; intros [|i] [|j] x L E; try discriminate; try lia; cbn [skipn].
  - left. cbn in E. congruence.
  - right. apply (nth_error_In _ j). exact E.
  - apply (IH i j); [lia|exact E].
Qed.

Lemma find_matching_complete fuel : forall target t t',
  laid_out t -> sub t target t' -> 0 < tsize t' -> target < 2 ^ 32 -> (height t <= fuel)%nat ->
  find_matching fuel target t (Some (tid t')) = Ok true.
Proof.
  induction fuel as [|f IH]; intros target t t' L Hs Pz T F; [assert (X := height_pos t); lia|].
  cbn [find_matching].
  destruct ((target =? 0) && (tid t =? tid t')) eqn:C; [reflexivity|].
  assert (B := sub_bounds _ _ _ Hs L).
  inversion Hs; subst.
  - rewrite !Z.eqb_refl in C. discriminate.
  - cbn [first_spanning]. destruct (laid_arr _ _ _ _ L) as (L1 & L2 & L3).
    assert (B2 := sub_bounds _ _ _ H0 L3).
    assert (Se : 0 < tsize e) by lia.
    assert (D : (i * tsize e + o) / tsize e = i).
    { symmetry. apply (Z.div_unique _ _ _ o); lia. }
    assert (M : (i * tsize e + o) mod tsize e = o).
    { symmetry. apply (Z.mod_unique _ _ i); lia. }
    rewrite D, M. replace (tsize e =? 0) with false by (symmetry; apply Z.eqb_neq; lia).
    rewrite Z.gtb_ltb. replace (i <? len) with true by (symmetry; apply Z.ltb_lt; lia).
    cbn [negb andb bind]. apply IH; auto; [nia|cbn in F; lia].
  - rename H into Hin. destruct (laid_comp _ _ _ L) as (_ & H3 & H4 & H5).
    destruct (H4 _ _ Hin) as (A1 & A2 & A3). assert (B2 := sub_bounds _ _ _ H0 A3).
    cbn [first_spanning members].
    destruct (nearest_sorted ms (off + o) H3) as (r & E & Hr). rewrite E. cbn [bind].
    destruct r as [[i offi]|]; [|specialize (Hr _ _ Hin); lia].
    destruct Hr as (Li & Oi & Le & Lo & Hi).
    destruct (off_nth ms i Li) as (mi & Ei). rewrite Oi in Ei. rewrite Ei.
    assert (Q : offi = off).
    { destruct (In_nth_error _ _ Hin) as (j & Ej). destruct (nth_off _ _ _ _ Ej) as [Oj Lj].
      assert (offi <= off \/ off < offi) as [X|X] by lia.
      - destruct (Nat.lt_ge_cases j i) as [Y|Y]; [specialize (Lo j Y); lia|].
        specialize (Hi j ltac:(lia)). lia.
      - assert (Y := H5 _ _ _ _ Hin (nth_error_In _ _ Ei) X). lia. }
    subst offi. rewrite Q in *. rewrite u32_small by lia.
    replace (off + o - off) with o by lia. cbn [bind].
    rewrite Ei.
    apply (try_all_complete _ (skipn i ms) off o m).
    + apply sorted_skipn, H3.
    + destruct (In_nth_error _ _ Hin) as (j & Ej). destruct (nth_off _ _ _ _ Ej) as [Oj Lj].
      apply (nth_in_skipn ms i j); [|exact Ej].
      destruct (Nat.lt_ge_cases j i) as [Y|Y]; [specialize (Lo j Y); lia|exact Y].
    + intros o' x Hx. destruct (in_skipn_nth _ _ _ Hx) as (j & Ej).
      destruct (nth_off _ _ _ _ Ej) as [Oj Lj]. assert (P := Hi (i + j)%nat ltac:(lia)). lia.
    + apply IH; auto; [lia|]. assert (X := height_memb id size ms _ _ Hin). lia.
    + intros x Hx. apply find_matching_total.
      assert (Hx' : In (off, x) ms).
      { apply (skipn_in _ i ms), Hx. }
      assert (X := height_memb id size ms _ _ Hx'). lia.
Qed.
