(* The concrete cache behaves as a list of records in recency order. *)
From Verif Require Import Base.
From Verif Require Import Cache_model Cache_spec.
From Coq Require Import Permutation NArith ZifyN.

Local Open Scope nat_scope.

Lemma upd_same {A} (f : nat -> A) i x : upd f i x i = x.
Proof. unfold upd. now rewrite Nat.eqb_refl. Qed.
Lemma upd_other {A} (f : nat -> A) i x j : j <> i -> upd f i x j = f j.
Proof. intro H. unfold upd. destruct (Nat.eqb_spec j i); congruence. Qed.

(* a doubly linked segment: [p] precedes it and [q] follows it *)
Fixpoint linked (en : nat -> entry) (p : nat) (l : list nat) (q : nat) : Prop :=
  match l with
  | [] => True
  | i :: r => e_prev (en i) = p /\ e_next (en i) = hd q r /\ linked en i r q
  end.

Lemma last_cons_d (l : list nat) i p : last (i :: l) p = last l i.
Proof.
  revert i p. induction l as [|j l IH]; intros i p; [reflexivity|].
  change (last (i :: j :: l) p) with (last (j :: l) p).
  rewrite !IH. reflexivity.
Qed.

Lemma hd_app (l1 l2 : list nat) q : hd q (l1 ++ l2) = hd (hd q l2) l1.
Proof. destruct l1; reflexivity. Qed.

Lemma linked_app en p l1 l2 q :
  linked en p (l1 ++ l2) q <-> linked en p l1 (hd q l2) /\ linked en (last l1 p) l2 q.
Proof.
  revert p. induction l1 as [|i l1 IH]; intro p.
  - cbn. tauto.
  - rewrite last_cons_d. cbn [linked app]. rewrite IH, hd_app. tauto.
Qed.

Lemma linked_ext en en' p l q :
  (forall i, In i l -> e_prev (en' i) = e_prev (en i) /\ e_next (en' i) = e_next (en i)) ->
  linked en p l q -> linked en' p l q.
Proof.
  revert p. induction l as [|i l IH]; intros p H; [auto|].
  cbn [linked]. intros (H1 & H2 & H3).
  destruct (H i (or_introl eq_refl)) as [E1 E2].
  split; [congruence|]. split; [congruence|].
  apply IH; [|exact H3]. intros j Hj. apply H. right; exact Hj.
Qed.

(* changing the follower of a non-empty segment *)
Lemma linked_setlast en en' p l q q' :
  NoDup l ->
  (forall i, In i l -> i <> last l 0 -> e_prev (en' i) = e_prev (en i) /\ e_next (en' i) = e_next (en i)) ->
  (l <> [] -> e_prev (en' (last l 0)) = e_prev (en (last l 0)) /\ e_next (en' (last l 0)) = q') ->
  linked en p l q -> linked en' p l q'.
Proof.
  revert p. induction l as [|i l IH]; intros p HN H HL; [auto|].
  cbn [linked]. intros (H1 & H2 & H3).
  apply NoDup_cons_iff in HN. destruct HN as [HNi HN].
  destruct l as [|j l].
  - cbn in *. destruct HL as [E1 E2]; [discriminate|]. split; [congruence|]. split; [exact E2|exact I].
  - change (last (i :: j :: l) 0) with (last (j :: l) 0) in *.
    assert (Hin : In (last (j :: l) 0) (j :: l)).
    { destruct (@exists_last nat (j :: l)) as (l' & x & E); [discriminate|].
      rewrite E, last_last. apply in_or_app. right; simpl; auto. }
    destruct (H i) as [E1 E2]; [simpl; auto| intro E; apply HNi; rewrite E; exact Hin|].
    split; [congruence|]. split; [rewrite E2; exact H2|].
    apply IH; [exact HN| |intros _; apply HL; discriminate|exact H3].
    intros k Hk Hne. apply H; [right; exact Hk|exact Hne].
Qed.

(* changing the predecessor of a segment *)
Lemma linked_setfirst en en' p p' l q :
  NoDup l ->
  (forall i, In i l -> i <> hd 0 l -> e_prev (en' i) = e_prev (en i) /\ e_next (en' i) = e_next (en i)) ->
  (l <> [] -> e_next (en' (hd 0 l)) = e_next (en (hd 0 l)) /\ e_prev (en' (hd 0 l)) = p') ->
  linked en p l q -> linked en' p' l q.
Proof.
  intros HN H HL. destruct l as [|i l]; [auto|].
  cbn [linked]. intros (H1 & H2 & H3). cbn [hd] in *.
  destruct HL as [E1 E2]; [discriminate|].
  split; [exact E2|]. split; [congruence|].
  apply linked_ext with (en := en); [|exact H3].
  intros j Hj. apply H; [right; exact Hj|].
  apply NoDup_cons_iff in HN. intro E. subst j. tauto.
Qed.

(* Representation: [l] lists the valid slots, most recent first. *)
Record Rep (c : cache) (l : list nat) : Prop := {
  Rnd  : NoDup l;
  Rin  : forall i, In i l <-> (1 <= i <= c_size c)%nat /\ valid c i = true;
  Rbit : forall k : nat, N.testbit (c_valid c) (N.of_nat k) = true -> (k < c_size c)%nat;
  Rhd  : c_head c = hd 0 l;
  Rtl  : c_tail c = last l 0;
  Rlnk : linked (c_ent c) 0 l 0 }.

Definition recs (c : cache) (l : list nat) : list rcd := map (fun i => e_rcd (c_ent c i)) l.

Lemma Rep_len c l : Rep c l -> (length l <= c_size c)%nat.
Proof.
  intro R.
  replace (c_size c) with (length (seq 1 (c_size c))) by apply seq_length.
  apply NoDup_incl_length; [apply (Rnd _ _ R)|].
  intros i Hi. apply (Rin _ _ R) in Hi. apply in_seq. lia.
Qed.

Lemma Rep_full c l : Rep c l ->
  (forall i, 1 <= i <= c_size c -> valid c i = true) -> length l = c_size c.
Proof.
  intros R H. apply Nat.le_antisymm; [apply Rep_len, R|].
  replace (c_size c) with (length (seq 1 (c_size c))) at 1 by apply seq_length.
  apply NoDup_incl_length; [apply seq_NoDup|].
  intros i Hi. apply in_seq in Hi. apply (Rin _ _ R). split; [lia|]. apply H. lia.
Qed.

Lemma Rep_zero c l : Rep c l -> ~ In 0 l.
Proof. intros R H. apply (Rin _ _ R) in H. lia. Qed.

Lemma last_in (l : list nat) d : l <> [] -> In (last l d) l.
Proof.
  intro H. destruct (@exists_last nat l H) as (l' & x & E).
  rewrite E, last_last. apply in_or_app. right; simpl; auto.
Qed.

Lemma init_Rep n : Rep (init_cache n) [].
Proof.
  constructor; cbn; auto.
  - constructor.
  - intro i. split; [tauto|]. intros [_ H]. discriminate.
  - intros k H. discriminate.
Qed.

Lemma unlink_ent c i j :
  let op := e_prev (c_ent c i) in let on := e_next (c_ent c i) in
  c_ent (unlink c i) j =
     if Nat.eqb j on && negb (Nat.eqb on 0) then
       (if Nat.eqb j op && negb (Nat.eqb op 0) then mkE (e_rcd (c_ent c j)) op on
        else mkE (e_rcd (c_ent c j)) op (e_next (c_ent c j)))
     else if Nat.eqb j op && negb (Nat.eqb op 0) then mkE (e_rcd (c_ent c j)) (e_prev (c_ent c j)) on
     else c_ent c j.
Proof.
  intros op on. unfold unlink. cbn [c_ent]. fold op. fold on. clearbody op on.
  destruct (Nat.eqb_spec op 0) as [E1|E1]; destruct (Nat.eqb_spec on 0) as [E2|E2];
    unfold upd, set_next, set_prev; cbn [negb];
    rewrite ?andb_true_r, ?andb_false_r;
    destruct (Nat.eqb_spec j on) as [E3|E3]; destruct (Nat.eqb_spec j op) as [E4|E4];
    try reflexivity; try (subst; reflexivity).
  - rewrite <- E3. destruct (Nat.eqb_spec j op); [|congruence]. subst. reflexivity.
  - rewrite <- E3. destruct (Nat.eqb_spec j op); [congruence|]. subst. reflexivity.
Qed.

Lemma unlink_Rep c l1 i l2 :
  Rep c (l1 ++ i :: l2) ->
  Rep (unlink c i) (l1 ++ l2) /\
  (forall j, e_rcd (c_ent (unlink c i) j) = e_rcd (c_ent c j)).
Proof.
  intro R.
  assert (HN := Rnd _ _ R). assert (HI := Rin _ _ R). assert (HB := Rbit _ _ R).
  assert (HH := Rhd _ _ R). assert (HT := Rtl _ _ R). assert (HL := Rlnk _ _ R).
  assert (HZ := Rep_zero _ _ R).
  apply linked_app in HL. destruct HL as [HL1 HL2]. cbn [linked hd] in HL1, HL2.
  destruct HL2 as (Hp & Hn & HL2).
  assert (HN' : NoDup (l1 ++ l2)) by (apply NoDup_remove_1 in HN; exact HN).
  assert (Hi : ~ In i (l1 ++ l2)) by (apply NoDup_remove_2 in HN; exact HN).
  assert (Hi1 : ~ In i l1) by (intro; apply Hi, in_or_app; auto).
  assert (Hi2 : ~ In i l2) by (intro; apply Hi, in_or_app; auto).
  assert (HZ1 : ~ In 0 l1) by (intro; apply HZ, in_or_app; auto).
  assert (HZ2 : ~ In 0 l2) by (intro; apply HZ, in_or_app; right; right; auto).
  assert (i0 : i <> 0) by (intro; subst; apply HZ, in_or_app; right; left; auto).
  assert (N1 : NoDup l1).
  { clear - HN'. induction l1 as [|a l1 IH]; [constructor|]. cbn in HN'.
    apply NoDup_cons_iff in HN'. destruct HN' as [A B]. constructor; [|auto].
    intro; apply A, in_or_app; auto. }
  assert (N2 : NoDup l2).
  { clear - HN'. induction l1 as [|a l1 IH]; [exact HN'|]. cbn in HN'.
    apply NoDup_cons_iff in HN'. destruct HN' as [A B]. auto. }
  assert (Dj : forall j, In j l1 -> In j l2 -> False).
  { clear - HN'. induction l1 as [|a l1 IH]; intros j A B; [destruct A|]. cbn in HN'.
    apply NoDup_cons_iff in HN'. destruct HN' as [C D]. destruct A as [A|A].
    - subst. apply C, in_or_app; auto.
    - exact (IH D j A B). }
  assert (Hpl : l1 <> [] -> last l1 0 = e_prev (c_ent c i) /\ In (last l1 0) l1).
  { intro E. split; [congruence|apply last_in, E]. }
  assert (Hnl : l2 <> [] -> hd 0 l2 = e_next (c_ent c i) /\ In (hd 0 l2) l2).
  { intro E. split; [congruence|]. destruct l2; [congruence|]. simpl; auto. }
  (* characterise the new entries *)
  set (op := e_prev (c_ent c i)) in *. set (on := e_next (c_ent c i)) in *.
  assert (Ent : forall j, c_ent (unlink c i) j =
     if Nat.eqb j on && negb (Nat.eqb on 0) then
       (if Nat.eqb j op && negb (Nat.eqb op 0) then mkE (e_rcd (c_ent c j)) op on
        else mkE (e_rcd (c_ent c j)) op (e_next (c_ent c j)))
     else if Nat.eqb j op && negb (Nat.eqb op 0) then mkE (e_rcd (c_ent c j)) (e_prev (c_ent c j)) on
     else c_ent c j).
  { intro j. apply unlink_ent. }
  assert (Hrcd : forall j, e_rcd (c_ent (unlink c i) j) = e_rcd (c_ent c j)).
  { intro j. rewrite Ent. destruct (_ && _); destruct (_ && _); reflexivity. }
  split; [|exact Hrcd].
  assert (Ep : op = last l1 0) by exact Hp.
  assert (En : on = hd 0 l2) by exact Hn.
  assert (op2 : forall j, In j l2 -> op <> 0 -> j <> op).
  { intros j Hj H0 E. subst j. destruct l1 as [|a l1]; [apply H0; exact Ep|].
    apply (Dj op); [rewrite Ep; apply last_in; discriminate|exact Hj]. }
  assert (on1 : forall j, In j l1 -> on <> 0 -> j <> on).
  { intros j Hj H0 E. subst j. destruct l2 as [|a l2]; [apply H0; exact En|].
    apply (Dj on); [exact Hj|rewrite En; simpl; auto]. }
  constructor.
  - exact HN'.
  - intro j. unfold valid, unlink. cbn [c_valid c_size].
    rewrite N.clearbit_eqb.
    specialize (HI j). unfold valid in HI.
    rewrite in_app_iff in HI. rewrite in_app_iff. cbn [In] in HI.
    destruct (Nat.eq_dec j i) as [E|E].
    + subst j. rewrite N.eqb_refl. split.
      * intros [A|A]; tauto.
      * intros [_ A]. cbn in A. rewrite andb_false_r in A. discriminate.
    + destruct (N.eqb_spec (N.of_nat (i - 1)) (N.of_nat (j - 1))) as [E2|E2].
      * split.
        -- intro A. assert (B : 1 <= j) by (apply HI; tauto). exfalso. lia.
        -- intros [[A1 A2] _]. exfalso. lia.
      * cbn [negb]. rewrite andb_true_r. rewrite <- HI.
        split; [tauto|]. intros [A|[A|A]]; auto. congruence.
  - intros k H. unfold unlink in H. cbn [c_valid] in H. rewrite N.clearbit_eqb in H.
    apply andb_true_iff in H. unfold unlink. cbn [c_size]. apply HB. tauto.
  - unfold unlink. cbn [c_head]. fold on. rewrite HH.
    destruct l1 as [|a l1]; cbn [app hd].
    + rewrite Nat.eqb_refl. exact En.
    + destruct (Nat.eqb_spec a i); [|reflexivity]. subst a. exfalso. apply Hi1. simpl; auto.
  - unfold unlink. cbn [c_tail]. fold op. rewrite HT.
    destruct l2 as [|b l2].
    + rewrite last_last, Nat.eqb_refl, app_nil_r. exact Ep.
    + destruct (@exists_last nat (b :: l2)) as (l' & x & E); [discriminate|].
      rewrite E. replace (l1 ++ i :: l' ++ [x]) with ((l1 ++ i :: l') ++ [x]) by (rewrite <- app_assoc; reflexivity).
      rewrite app_assoc, !last_last.
      destruct (Nat.eqb_spec x i); [|reflexivity]. subst x. exfalso. apply Hi2.
      rewrite E. apply in_or_app. right; simpl; auto.
  - apply linked_app. split.
    + apply linked_setlast with (en := c_ent c) (q := i); [exact N1| | |exact HL1].
      * intros j Hj Hne. rewrite Ent.
        assert (A : Nat.eqb j on && negb (Nat.eqb on 0) = false).
        { destruct (Nat.eqb_spec on 0); [apply andb_false_r|].
          destruct (Nat.eqb_spec j on); [exfalso; apply (on1 j); auto|reflexivity]. }
        rewrite A.
        assert (B : Nat.eqb j op = false) by (apply Nat.eqb_neq; congruence).
        rewrite B. cbn. auto.
      * intro Ne. destruct (Hpl Ne) as [A1 A2]. rewrite Ent.
        assert (A : Nat.eqb (last l1 0) on && negb (Nat.eqb on 0) = false).
        { destruct (Nat.eqb_spec on 0); [apply andb_false_r|].
          destruct (Nat.eqb_spec (last l1 0) on); [exfalso; apply (on1 (last l1 0)); auto|reflexivity]. }
        rewrite A. rewrite A1, Nat.eqb_refl.
        destruct (Nat.eqb_spec op 0) as [E0|E0].
        { exfalso. apply HZ1. rewrite <- E0, <- A1. exact A2. }
        cbn. split; [reflexivity|exact En].
    + apply linked_setfirst with (en := c_ent c) (p := i); [exact N2| | |exact HL2].
      * intros j Hj Hne. rewrite Ent.
        assert (A : Nat.eqb j on = false) by (apply Nat.eqb_neq; congruence).
        rewrite A. cbn [andb].
        destruct (Nat.eqb_spec op 0) as [E0|E0]; [rewrite andb_false_r; auto|].
        destruct (Nat.eqb_spec j op); [exfalso; apply (op2 j); auto|auto].
      * intro Ne. destruct (Hnl Ne) as [A1 A2]. rewrite Ent.
        rewrite A1, Nat.eqb_refl.
        destruct (Nat.eqb_spec on 0) as [E0|E0].
        { exfalso. apply HZ2. rewrite <- E0, <- A1. exact A2. }
        cbn [negb andb].
        destruct (Nat.eqb_spec on op) as [E1|E1]; cbn [andb e_next e_prev].
        -- destruct (Nat.eqb_spec op 0) as [E2|E2]; [congruence|].
           exfalso. apply (op2 on); [rewrite <- A1; exact A2|exact E2|exact E1].
        -- split; [reflexivity|exact Ep].
Qed.

Lemma push_Rep c l i :
  Rep c l -> ~ In i l -> 1 <= i <= c_size c ->
  Rep (push_head_mru c i) (i :: l) /\
  (forall j, e_rcd (c_ent (push_head_mru c i) j) = e_rcd (c_ent c j)).
Proof.
  intros R Hni Hi.
  assert (HN := Rnd _ _ R). assert (HI := Rin _ _ R). assert (HB := Rbit _ _ R).
  assert (HH := Rhd _ _ R). assert (HT := Rtl _ _ R). assert (HL := Rlnk _ _ R).
  assert (HZ := Rep_zero _ _ R).
  assert (Ent : forall j, c_ent (push_head_mru c i) j =
    if Nat.eqb j i then mkE (e_rcd (c_ent c i)) 0 (c_head c)
    else if Nat.eqb j (c_head c) && negb (Nat.eqb (c_head c) 0)
         then mkE (e_rcd (c_ent c j)) i (e_next (c_ent c j)) else c_ent c j).
  { intro j. unfold push_head_mru. cbn [c_ent].
    assert (A : c_head c <> i).
    { rewrite HH. destruct l as [|a l]; cbn; [lia|]. intro E. apply Hni. simpl; auto. }
    destruct (Nat.eqb_spec (c_head c) 0) as [E|E]; cbn [negb].
    - rewrite andb_false_r. unfold upd. destruct (Nat.eqb_spec j i); [subst|]; reflexivity.
    - rewrite andb_true_r. unfold upd, set_prev.
      destruct (Nat.eqb_spec j (c_head c)) as [E1|E1]; destruct (Nat.eqb_spec j i) as [E2|E2]; try congruence.
      subst j. destruct (Nat.eqb_spec (c_head c) i); [congruence|]. reflexivity. }
  assert (Hrcd : forall j, e_rcd (c_ent (push_head_mru c i) j) = e_rcd (c_ent c j)).
  { intro j. rewrite Ent. destruct (Nat.eqb_spec j i); [subst; reflexivity|]. destruct (_ && _); reflexivity. }
  split; [|exact Hrcd].
  constructor.
  - constructor; auto.
  - intro j. unfold push_head_mru, valid. cbn [c_valid c_size In]. rewrite N.setbit_eqb.
    specialize (HI j). unfold valid in HI.
    destruct (Nat.eq_dec i j) as [E|E].
    + subst j. rewrite N.eqb_refl. cbn [orb]. split; [intros _; split; [exact Hi|reflexivity]|auto].
    + destruct (N.eqb_spec (N.of_nat (i - 1)) (N.of_nat (j - 1))) as [E2|E2].
      * split.
        -- intros [A|A]; [congruence|]. apply HI in A. lia.
        -- intros [A _]. lia.
      * cbn [orb]. rewrite <- HI. split; [intros [A|A]; [congruence|auto]|auto].
  - intros k. unfold push_head_mru. cbn [c_valid c_size]. rewrite N.setbit_eqb.
    destruct (N.eqb_spec (N.of_nat (i - 1)) (N.of_nat k)) as [E2|E2]; cbn [orb].
    + intros _. lia.
    + apply HB.
  - reflexivity.
  - unfold push_head_mru. cbn [c_tail]. rewrite HT.
    destruct l as [|a l]; [reflexivity|].
    change (last (i :: a :: l) 0) with (last (a :: l) 0).
    destruct (Nat.eqb_spec (last (a :: l) 0) 0) as [E|E]; [|reflexivity].
    exfalso. apply HZ. rewrite <- E. apply last_in. discriminate.
  - cbn [linked]. split; [rewrite Ent, Nat.eqb_refl; reflexivity|].
    split; [rewrite Ent, Nat.eqb_refl; exact HH|].
    apply linked_setfirst with (en := c_ent c) (p := 0); [exact HN| | |exact HL].
    + intros j Hj Hne. rewrite Ent, HH.
      destruct (Nat.eqb_spec j i); [subst; tauto|].
      destruct (Nat.eqb_spec j (hd 0 l)); [congruence|]. auto.
    + intro Ne. rewrite Ent, HH, Nat.eqb_refl.
      destruct l as [|a l]; [congruence|]. cbn [hd] in *.
      destruct (Nat.eqb_spec a i); [subst; exfalso; apply Hni; simpl; auto|].
      destruct (Nat.eqb_spec a 0); [subst; exfalso; apply HZ; simpl; auto|].
      cbn. auto.
Qed.

Lemma size_unlink c i : c_size (unlink c i) = c_size c. Proof. reflexivity. Qed.
Lemma size_push c i : c_size (push_head_mru c i) = c_size c. Proof. reflexivity. Qed.
Lemma size_bump c i : c_size (bump_mru c i) = c_size c.
Proof. unfold bump_mru. destruct (Nat.eqb _ _); [reflexivity|]. destruct (valid _ _); reflexivity. Qed.
Lemma size_bumpv c i : c_size (bump_victim c i) = c_size c.
Proof. unfold bump_victim. destruct (Nat.eqb _ _); [|reflexivity]. destruct (Nat.ltb _ _); reflexivity. Qed.

Lemma bump_victim_Rep c l i : Rep c l -> Rep (bump_victim c i) l.
Proof.
  intro R. unfold bump_victim. destruct (Nat.eqb _ _); [|exact R]. destruct (Nat.ltb _ _); [|exact R].
  destruct R. constructor; auto.
Qed.
Lemma bump_victim_ent c i : c_ent (bump_victim c i) = c_ent c.
Proof. unfold bump_victim. destruct (Nat.eqb _ _); [|reflexivity]. destruct (Nat.ltb _ _); reflexivity. Qed.

(* moving a listed slot to the front *)
Lemma bump_old_Rep c l1 i l2 :
  Rep c (l1 ++ i :: l2) ->
  Rep (bump_mru c i) (i :: l1 ++ l2) /\
  (forall j, e_rcd (c_ent (bump_mru c i) j) = e_rcd (c_ent c j)).
Proof.
  intro R. unfold bump_mru.
  assert (HH := Rhd _ _ R).
  assert (Hv : 1 <= i <= c_size c /\ valid c i = true).
  { apply (Rin _ _ R). apply in_or_app. right; simpl; auto. }
  destruct (Nat.eqb_spec (c_head c) i) as [E|E].
  - destruct l1 as [|a l1]; [split; [exact R|reflexivity]|].
    exfalso. rewrite HH in E. cbn in E. subst a.
    assert (HN := Rnd _ _ R). cbn in HN. apply NoDup_cons_iff in HN.
    apply HN, in_or_app. right; simpl; auto.
  - destruct Hv as [Hv1 Hv2]. rewrite Hv2.
    destruct (unlink_Rep _ _ _ _ R) as [R1 E1].
    assert (Hni : ~ In i (l1 ++ l2)).
    { assert (HN := Rnd _ _ R). apply NoDup_remove_2 in HN. exact HN. }
    destruct (push_Rep _ _ i R1 Hni) as [R2 E2]; [rewrite size_unlink; exact Hv1|].
    split; [exact R2|]. intro j. rewrite E2, E1. reflexivity.
Qed.

(* bringing in an unused slot *)
Lemma bump_new_Rep c l i :
  Rep c l -> ~ In i l -> 1 <= i <= c_size c ->
  Rep (bump_mru c i) (i :: l) /\
  (forall j, e_rcd (c_ent (bump_mru c i) j) = e_rcd (c_ent c j)).
Proof.
  intros R Hni Hi. unfold bump_mru.
  assert (HH := Rhd _ _ R).
  destruct (Nat.eqb_spec (c_head c) i) as [E|E].
  - exfalso. rewrite HH in E. destruct l as [|a l]; cbn in E; [lia|].
    subst a. apply Hni. simpl; auto.
  - destruct (valid c i) eqn:Ev.
    + exfalso. apply Hni. apply (Rin _ _ R). auto.
    + apply push_Rep; auto.
Qed.

Lemma first_clear_spec left : forall i v,
  (first_clear left i v = 0 /\ (forall k, i <= k < i + left -> N.testbit v (N.of_nat k) = true)) \/
  (exists k, first_clear left i v = S k /\ i <= k < i + left /\
             N.testbit v (N.of_nat k) = false /\
             (forall m, i <= m < k -> N.testbit v (N.of_nat m) = true)).
Proof.
  induction left as [|n IH]; intros i v; cbn [first_clear].
  - left. split; [reflexivity|]. intros; lia.
  - destruct (N.testbit v (N.of_nat i)) eqn:E.
    + destruct (IH (S i) v) as [[A B]|(k & A & B & C & D)].
      * left. split; [exact A|]. intros k Hk. destruct (Nat.eq_dec k i); [subst; exact E|apply B; lia].
      * right. exists k. repeat split; auto; try lia.
        intros m Hm. destruct (Nat.eq_dec m i); [subst; exact E|apply D; lia].
    + right. exists i. repeat split; auto; try lia; intros; lia.
Qed.

(* the abstract fill: a list in recency order *)
Definition afill (n : nat) (l : list rcd) (r : rcd) : list rcd :=
  if Nat.ltb (length l) n then r :: l else r :: removelast l.

Lemma recs_ext c c' l :
  (forall j, In j l -> e_rcd (c_ent c' j) = e_rcd (c_ent c j)) -> recs c' l = recs c l.
Proof. intro H. unfold recs. apply map_ext_in. exact H. Qed.

Lemma set_ent_Rep c l pos r :
  Rep c l ->
  Rep (mkC (c_valid c) (c_size c) (c_victim c) (c_head c) (c_tail c)
        (upd (c_ent c) pos (mkE r (e_prev (c_ent c pos)) (e_next (c_ent c pos))))) l.
Proof.
  intro R. destruct R as [A B C D E F]. constructor; cbn; auto.
  apply linked_ext with (en := c_ent c); [|exact F].
  intros i _. unfold upd. destruct (Nat.eqb_spec i pos); [subst|]; auto.
Qed.

Lemma fill_ok c l r :
  Rep c l -> 0 < c_size c < 32 ->
  exists c' l', cache_with_type c r = Ok c' /\ Rep c' l' /\ c_size c' = c_size c /\
    recs c' l' = afill (c_size c) (recs c l) r.
Proof.
  intros R Hs. unfold cache_with_type.
  assert (HV : forall i, 1 <= i <= c_size c -> (In i l <-> valid c i = true)).
  { intros i Hi. rewrite (Rin _ _ R). tauto. }
  destruct (first_clear_spec 32 0 (c_valid c)) as [[A B]|(k & A & B & C & D)].
  - exfalso. assert (E := Rbit _ _ R (c_size c)). rewrite B in E; [|lia]. specialize (E eq_refl). lia.
  - unfold ffs_clear. rewrite A.
    assert (Hk : k <= c_size c).
    { destruct (Nat.le_gt_cases k (c_size c)); [auto|].
      assert (E := Rbit _ _ R (c_size c)). rewrite D in E; [|lia]. specialize (E eq_refl). lia. }
    destruct (Nat.ltb_spec (S (c_size c)) (S k)); [lia|].
    set (c1 := fun pos => mkC (c_valid c) (c_size c) (c_victim c) (c_head c) (c_tail c)
        (upd (c_ent c) pos (mkE r (e_prev (c_ent c pos)) (e_next (c_ent c pos))))).
    destruct (Nat.eqb_spec (S k) (S (c_size c))) as [E|E].
    + (* full: reuse the tail *)
      assert (Hfull : length l = c_size c).
      { apply Rep_full; [exact R|]. intros i Hi. unfold valid. apply D. lia. }
      destruct (@exists_last nat l) as (l0 & t & El).
      { intro; subst; cbn in Hfull; lia. }
      assert (Ht : c_tail c = t) by (rewrite (Rtl _ _ R), El; apply last_last).
      assert (Hin : In t l) by (rewrite El; apply in_or_app; right; simpl; auto).
      assert (Ht1 : 1 <= t <= c_size c) by (apply (Rin _ _ R) in Hin; tauto).
      rewrite Ht. cbn [andb].
      destruct (Nat.eqb_spec t 0); [lia|]. cbn [orb].
      destruct (Nat.ltb_spec (c_size c) t); [lia|].
      assert (R1 : Rep (c1 t) (l0 ++ t :: [])).
      { rewrite <- El. apply set_ent_Rep, R. }
      destruct (bump_old_Rep _ _ _ _ R1) as [R2 E2]. rewrite app_nil_r in R2.
      exists (bump_victim (bump_mru (c1 t) t) t), (t :: l0). split; [unfold c1; rewrite Ht; reflexivity|].
      split; [apply bump_victim_Rep; exact R2|].
      split; [rewrite size_bumpv, size_bump; reflexivity|].
      unfold afill. unfold recs at 2. rewrite map_length, Hfull, Nat.ltb_irrefl.
      unfold recs. rewrite bump_victim_ent. cbn [map].
      rewrite E2. f_equal; [unfold c1; cbn; rewrite upd_same; reflexivity|].
      rewrite El, map_app. cbn [map]. rewrite removelast_last.
      apply map_ext_in. intros j Hj. rewrite E2. unfold c1. cbn.
      rewrite upd_other; [reflexivity|].
      intro; subst j. assert (HN := Rnd _ _ R). rewrite El in HN.
      apply NoDup_remove_2 in HN. rewrite app_nil_r in HN. tauto.
    + cbn [andb Nat.eqb orb]. destruct (Nat.ltb_spec (c_size c) (S k)); [lia|].
      assert (Hni : ~ In (S k) l).
      { intro Hin. apply HV in Hin; [|lia]. unfold valid in Hin.
        replace (S k - 1) with k in Hin by lia. congruence. }
      assert (R1 : Rep (c1 (S k)) l) by apply set_ent_Rep, R.
      destruct (bump_new_Rep _ _ (S k) R1 Hni) as [R2 E2]; [cbn; lia|].
      exists (bump_victim (bump_mru (c1 (S k)) (S k)) (S k)), (S k :: l). split; [reflexivity|].
      split; [apply bump_victim_Rep; exact R2|].
      split; [rewrite size_bumpv, size_bump; reflexivity|].
      assert (Hlt : length l < c_size c).
      { assert (L := Rep_len _ _ R2). rewrite size_bump in L. cbn [length c1 c_size] in L. lia. }
      unfold afill. unfold recs at 2. rewrite map_length.
      destruct (Nat.ltb_spec (length l) (c_size c)); [|lia].
      unfold recs. rewrite bump_victim_ent. cbn [map].
      rewrite E2. f_equal; [unfold c1; cbn; rewrite upd_same; reflexivity|].
      apply map_ext_in. intros j Hj. rewrite E2. unfold c1. cbn.
      rewrite upd_other; [reflexivity|]. congruence.
Qed.

(* the abstract lookup *)
Fixpoint afind (test : rcd -> bool) (l : list rcd) : option (rcd * list rcd) :=
  match l with
  | [] => None
  | r :: l' => if test r then Some (r, l')
               else match afind test l' with
                    | Some (x, rest) => Some (x, r :: rest)
                    | None => None
                    end
  end.
Definition alook (test : rcd -> bool) (l : list rcd) : list rcd * option rcd :=
  match afind test l with
  | Some (r, rest) => (r :: rest, Some r)
  | None => (l, None)
  end.

Lemma find_slot_ok c test l : forall fuel p,
  (forall i, In i l -> i <> 0 /\ valid c i = true) ->
  linked (c_ent c) p l 0 -> length l < fuel ->
  match afind test (recs c l) with
  | None => find_slot fuel c test (hd 0 l) = Ok None
  | Some (r, rest) => exists l1 i l2, l = l1 ++ i :: l2 /\
      find_slot fuel c test (hd 0 l) = Ok (Some i) /\ r = e_rcd (c_ent c i) /\
      rest = recs c (l1 ++ l2)
  end.
Proof.
  induction l as [|i l IH]; intros fuel p Hv HL Hf.
  - destruct fuel; [cbn in Hf; lia|]. reflexivity.
  - destruct fuel as [|f]; [cbn in Hf; lia|].
    cbn [linked] in HL. destruct HL as (_ & Hn & HL).
    destruct (Hv i) as [i0 iv]; [simpl; auto|].
    specialize (IH f i (fun j Hj => Hv j (or_intror Hj)) HL ltac:(cbn in Hf; lia)).
    cbn [recs map afind hd]. fold (recs c l).
    cbn [find_slot]. destruct (Nat.eqb_spec i 0); [congruence|]. rewrite iv. cbn [andb].
    destruct (test (e_rcd (c_ent c i))) eqn:Et.
    + exists [], i, l. split; [reflexivity|]. split; [reflexivity|]. split; reflexivity.
    + rewrite Hn. destruct (afind test (recs c l)) as [[r rest]|].
      * destruct IH as (l1 & j & l2 & E1 & E2 & E3 & E4).
        exists (i :: l1), j, l2. split; [cbn; congruence|]. split; [exact E2|].
        split; [exact E3|]. rewrite E4. reflexivity.
      * exact IH.
Qed.

Lemma lookup_ok c l test :
  Rep c l ->
  exists c' l', lookup c test = Ok (c', snd (alook test (recs c l))) /\ Rep c' l' /\
    c_size c' = c_size c /\ recs c' l' = fst (alook test (recs c l)).
Proof.
  intro R. unfold lookup.
  assert (Hv : forall i, In i l -> i <> 0 /\ valid c i = true).
  { intros i Hi. apply (Rin _ _ R) in Hi. split; [lia|tauto]. }
  assert (F := find_slot_ok c test l (S (S (c_size c))) 0 Hv (Rlnk _ _ R)
                 ltac:(assert (L := Rep_len _ _ R); lia)).
  rewrite (Rhd _ _ R). unfold alook.
  destruct (afind test (recs c l)) as [[r rest]|].
  - destruct F as (l1 & i & l2 & E1 & E2 & E3 & E4). rewrite E2. cbn [bind].
    rewrite E1 in R. destruct (bump_old_Rep _ _ _ _ R) as [R2 ER].
    exists (bump_mru c i), (i :: l1 ++ l2).
    split; [rewrite ER, <- E3; reflexivity|]. split; [exact R2|].
    split; [apply size_bump|]. cbn [recs map fst]. rewrite ER, <- E3. f_equal.
    rewrite E4. apply recs_ext. intros j _. apply ER.
  - rewrite F. cbn [bind]. exists c, l. split; [reflexivity|]. split; [exact R|]. split; reflexivity.
Qed.

Lemma set_victim_Rep c l v :
  Rep c l -> Rep (mkC (c_valid c) (c_size c) v (c_head c) (c_tail c) (c_ent c)) l.
Proof. intro R. destruct R. constructor; auto. Qed.

(* invalidation keeps, in order, the records that fail the test *)
Lemma uncache_loop_ok p sz : forall left i c l,
  Rep c l -> 1 <= i -> i + left = S (c_size c) ->
  (forall j, In j l -> j < i -> uncache_test p sz (e_rcd (c_ent c j)) = false) ->
  exists l', Rep (uncache_loop left i p sz c) l' /\ c_size (uncache_loop left i p sz c) = c_size c /\
    recs (uncache_loop left i p sz c) l' =
      filter (fun r => negb (uncache_test p sz r)) (recs c l).
Proof.
  induction left as [|k IH]; intros i c l R H1 Hs Hd; cbn [uncache_loop].
  - exists l. split; [exact R|]. split; [reflexivity|].
    symmetry. unfold recs.
    assert (HA : forall j, In j l -> uncache_test p sz (e_rcd (c_ent c j)) = false).
    { intros j Hj. apply Hd; [exact Hj|]. apply (Rin _ _ R) in Hj. lia. }
    clear - HA. induction l as [|a l IH]; [reflexivity|].
    cbn. rewrite (HA a) by (simpl; auto). cbn. f_equal. apply IH.
    intros j Hj. apply HA. right; exact Hj.
  - destruct (valid c i && uncache_test p sz (e_rcd (c_ent c i))) eqn:E.
    + apply andb_true_iff in E. destruct E as [Ev Et].
      assert (Hin : In i l) by (apply (Rin _ _ R); split; [lia|exact Ev]).
      apply in_split in Hin. destruct Hin as (l1 & l2 & El). subst l.
      destruct (unlink_Rep _ _ _ _ R) as [R1 E1].
      assert (R2 := set_victim_Rep _ _ i R1).
      set (c2 := mkC _ _ _ _ _ _) in *.
      assert (E2 : forall j, e_rcd (c_ent c2 j) = e_rcd (c_ent c j)) by exact E1.
      destruct (IH (S i) c2 (l1 ++ l2)) as (l' & A & B & C); [exact R2|lia|cbn; lia| |].
      { intros j Hj Hlt. rewrite E2. apply Hd.
        - apply in_app_or in Hj. apply in_or_app. simpl. tauto.
        - assert (j <> i); [|lia]. intro; subst j.
          assert (HN := Rnd _ _ R). apply NoDup_remove_2 in HN. tauto. }
      exists l'. split; [exact A|]. split; [rewrite B; reflexivity|].
      rewrite C. unfold recs. rewrite !map_app, !filter_app. cbn [map filter].
      rewrite Et. cbn [negb].
      f_equal; f_equal; apply map_ext_in; intros j _; apply E2.
    + destruct (IH (S i) c l) as (l' & A & B & C); [exact R|lia|lia| |].
      { intros j Hj Hlt. destruct (Nat.eq_dec j i) as [->|]; [|apply Hd; [exact Hj|lia]].
        apply (Rin _ _ R) in Hj. destruct Hj as [_ Hj]. rewrite Hj in E. exact E. }
      exists l'. auto.
Qed.

Lemma uncache_ok c l p sz :
  Rep c l ->
  exists l', Rep (uncache_all c p sz) l' /\ c_size (uncache_all c p sz) = c_size c /\
    recs (uncache_all c p sz) l' = filter (fun r => negb (uncache_test p sz r)) (recs c l).
Proof.
  intro R. unfold uncache_all. apply uncache_loop_ok; [exact R|lia|lia|].
  intros j Hj Hlt. apply (Rin _ _ R) in Hj. lia.
Qed.

(* the abstract machine in recency order *)
Definition astep (n : nat) (l : list rcd) (o : cop) : list rcd * option rcd :=
  match o with
  | Fill r => (afill n l r, None)
  | Look obj t per => alook (hit_typed obj t per) l
  | LookAny obj per => alook (hit_untyped obj per) l
  | Uncache p sz => (filter (fun r => negb (uncache_test p sz r)) l, None)
  end.
Fixpoint arun (n : nat) (l : list rcd) (h : list cop) : list rcd * list (option rcd) :=
  match h with
  | [] => (l, [])
  | o :: h' => let '(l1, a) := astep n l o in let '(l2, outs) := arun n l1 h' in (l2, a :: outs)
  end.

Lemma cstep_ok c l o :
  Rep c l -> 0 < c_size c < 32 ->
  exists c' l', cstep c o = Ok (c', snd (astep (c_size c) (recs c l) o)) /\ Rep c' l' /\
    c_size c' = c_size c /\ recs c' l' = fst (astep (c_size c) (recs c l) o).
Proof.
  intros R Hs. destruct o as [r|obj t per|obj per|p sz]; cbn [cstep astep].
  - destruct (fill_ok c l r R Hs) as (c' & l' & A & B & C & D).
    exists c', l'. rewrite A. cbn. auto.
  - apply lookup_ok, R.
  - apply lookup_ok, R.
  - destruct (uncache_ok c l p sz R) as (l' & A & B & C).
    exists (uncache_all c p sz), l'. cbn. auto.
Qed.

Lemma crun_ok h : forall c l,
  Rep c l -> 0 < c_size c < 32 ->
  exists c' l', crun c h = Ok (c', snd (arun (c_size c) (recs c l) h)) /\ Rep c' l' /\
    c_size c' = c_size c /\ recs c' l' = fst (arun (c_size c) (recs c l) h).
Proof.
  induction h as [|o h IH]; intros c l R Hs; cbn [crun arun].
  - exists c, l. cbn. auto.
  - destruct (cstep_ok c l o R Hs) as (c1 & l1 & A & B & C & D). rewrite A. cbn [bind].
    destruct (astep (c_size c) (recs c l) o) as [m a]. cbn [fst snd] in *.
    destruct (IH c1 l1 B ltac:(rewrite C; exact Hs)) as (c2 & l2 & A2 & B2 & C2 & D2).
    rewrite A2. cbn [bind]. rewrite C, D in *.
    destruct (arun (c_size c) m h) as [m2 outs]. cbn [fst snd] in *.
    exists c2, l2. split; [reflexivity|]. split; [exact B2|]. split; [congruence|exact D2].
Qed.

(* structural soundness *)
Lemma linked_nth en : forall l p q k, linked en p l q -> k < length l ->
  e_prev (en (nth k l 0)) = (match k with O => p | S j => nth j l 0 end) /\
  e_next (en (nth k l 0)) = nth (S k) (l ++ [q]) 0.
Proof.
  induction l as [|i l IH]; intros p q k H Hk; [cbn in Hk; lia|].
  cbn [linked] in H. destruct H as (A & B & C). destruct k as [|k].
  - cbn. split; [exact A|]. rewrite B. destruct l; reflexivity.
  - cbn [nth length] in *. destruct (IH i q k C ltac:(lia)) as [E1 E2].
    split; [|exact E2]. rewrite E1. destruct k; reflexivity.
Qed.

Lemma Rep_recency c l : Rep c l -> recency c l.
Proof.
  intro R. split; [apply (Rnd _ _ R)|]. split; [apply Rep_len, R|].
  split; [apply (Rin _ _ R)|]. split; [apply (Rhd _ _ R)|]. split; [apply (Rtl _ _ R)|].
  intros k Hk. destruct (linked_nth _ _ _ _ k (Rlnk _ _ R) Hk) as [A B].
  split; [exact A|]. rewrite B.
  destruct (Nat.lt_ge_cases (S k) (length l)).
  - rewrite app_nth1 by lia. reflexivity.
  - rewrite app_nth2 by lia. rewrite (nth_overflow l) by lia.
    replace (S k - length l) with 0 by lia. reflexivity.
Qed.

Lemma visited_linear_spec c : forall k b,
  N.testbit (visited_linear c k) (N.of_nat b) = ((b <? k) && valid c (S b))%nat.
Proof.
  induction k as [|k IH]; intro b; cbn [visited_linear].
  - rewrite N.bits_0. reflexivity.
  - replace (S k - 1) with k by lia.
    destruct (valid c (S k)) eqn:E.
    + rewrite N.setbit_eqb, IH.
      destruct (N.eqb_spec (N.of_nat k) (N.of_nat b)) as [E2|E2]; cbn [orb].
      * replace b with k by lia. rewrite E. destruct (Nat.ltb_spec k (S k)); [reflexivity|lia].
      * destruct (Nat.ltb_spec b k); destruct (Nat.ltb_spec b (S k)); try lia; reflexivity.
    + rewrite IH.
      destruct (Nat.ltb_spec b k); destruct (Nat.ltb_spec b (S k)); try lia; try reflexivity.
      replace b with k by lia. rewrite E. reflexivity.
Qed.

Fixpoint setbits (l : list nat) (m : N) : N :=
  match l with [] => m | i :: r => setbits r (N.setbit m (N.of_nat (i - 1))) end.

Lemma setbits_spec l : forall m b, (forall i, In i l -> 1 <= i) ->
  N.testbit (setbits l m) (N.of_nat b) = N.testbit m (N.of_nat b) || existsb (Nat.eqb (S b)) l.
Proof.
  induction l as [|i l IH]; intros m b H; cbn [setbits existsb]; [now rewrite orb_false_r|].
  rewrite IH by (intros j Hj; apply H; right; exact Hj).
  rewrite N.setbit_eqb.
  assert (Hi : 1 <= i) by (apply H; simpl; auto).
  assert (E : N.eqb (N.of_nat (i - 1)) (N.of_nat b) = Nat.eqb (S b) i).
  { destruct (N.eqb_spec (N.of_nat (i - 1)) (N.of_nat b)); destruct (Nat.eqb_spec (S b) i); lia. }
  rewrite E. destruct (Nat.eqb (S b) i), (N.testbit m (N.of_nat b)), (existsb (Nat.eqb (S b)) l); reflexivity.
Qed.

Lemma walk_ok c nxt l : forall fuel m,
  (forall i, In i l -> i <> 0 /\ valid c i = true /\ N.testbit m (N.of_nat (i - 1)) = false) ->
  NoDup l ->
  (forall k, k < length l -> nxt (c_ent c (nth k l 0)) = nth (S k) l 0) ->
  length l < fuel ->
  walk fuel c nxt (hd 0 l) m = Ok (setbits l m).
Proof.
  induction l as [|i l IH]; intros fuel m Hv HN Hl Hf.
  - destruct fuel; [cbn in Hf; lia|]. reflexivity.
  - destruct fuel as [|f]; [cbn in Hf; lia|]. cbn [hd walk setbits].
    destruct (Hv i) as (A & B & C); [simpl; auto|].
    destruct (Nat.eqb_spec i 0); [congruence|]. rewrite B, C. cbn [negb].
    assert (E : nxt (c_ent c i) = hd 0 l).
    { specialize (Hl 0 ltac:(cbn; lia)). cbn in Hl. rewrite Hl. destruct l; reflexivity. }
    rewrite E. apply NoDup_cons_iff in HN. destruct HN as [HNi HN]. apply IH.
    + intros j Hj. destruct (Hv j) as (A1 & B1 & C1); [right; exact Hj|].
      split; [exact A1|]. split; [exact B1|]. rewrite N.setbit_eqb, C1, orb_false_r.
      apply N.eqb_neq. intro E1. assert (j <> i) by congruence. lia.
    + exact HN.
    + intros k Hk. specialize (Hl (S k) ltac:(cbn; lia)). cbn [nth] in Hl. exact Hl.
    + cbn in Hf. lia.
Qed.

Lemma rev_nth_next (l : list nat) k : k < length l -> nth k (rev l) 0 = nth (length l - S k) l 0.
Proof. intro H. apply rev_nth, H. Qed.

Lemma hd_rev_last (l : list nat) : hd 0 (rev l) = last l 0.
Proof.
  destruct l as [|a l]; [reflexivity|].
  destruct (@exists_last nat (a :: l)) as (l' & x & E); [discriminate|].
  rewrite E, rev_app_distr, last_last. reflexivity.
Qed.

Lemma sanity_ok c l : Rep c l -> sanity c = Ok tt.
Proof.
  intro R. assert (Q := Rep_recency _ _ R).
  destruct Q as (HN & HL & HI & HH & HT & HK). unfold sanity.
  assert (Hv : forall i, In i l -> i <> 0 /\ valid c i = true /\ N.testbit 0 (N.of_nat (i - 1)) = false).
  { intros i Hi. apply HI in Hi. split; [lia|]. split; [tauto|apply N.bits_0]. }
  assert (Lin : forall l', (forall i, In i l' <-> In i l) -> visited_linear c (c_size c) = setbits l' 0).
  { intros l' Hl'. apply N.bits_inj. intro b. rewrite <- (Nnat.N2Nat.id b).
    set (k := N.to_nat b). rewrite visited_linear_spec, setbits_spec.
    - rewrite N.bits_0. cbn [orb].
      destruct (existsb (Nat.eqb (S k)) l') eqn:E.
      + apply existsb_exists in E. destruct E as (x & Hx & E). apply Nat.eqb_eq in E. subst x.
        apply Hl', HI in Hx. destruct Hx as [Hx1 Hx2]. rewrite Hx2.
        destruct (Nat.ltb_spec k (c_size c)); [reflexivity|lia].
      + destruct ((k <? c_size c) && valid c (S k))%nat eqn:E2; [|reflexivity].
        apply andb_true_iff in E2. destruct E2 as [E2 E3]. apply Nat.ltb_lt in E2.
        assert (Hx : In (S k) l') by (apply Hl', HI; split; [lia|exact E3]).
        exfalso. assert (existsb (Nat.eqb (S k)) l' = true); [|congruence].
        apply existsb_exists. exists (S k). split; [exact Hx|apply Nat.eqb_refl].
    - intros i Hi. apply Hl', HI in Hi. lia. }
  rewrite HH, (walk_ok c e_next l); [|exact Hv|exact HN|intros k Hk; apply HK, Hk|lia].
  cbn [bind]. rewrite (Lin l ltac:(tauto)), N.eqb_refl. cbn [negb].
  rewrite HT, <- hd_rev_last.
  rewrite (walk_ok c e_prev (rev l)).
  - cbn [bind]. rewrite <- (Lin l) by tauto.
    rewrite <- (Lin (rev l)) by (intro i; symmetry; apply in_rev).
    rewrite N.eqb_refl. reflexivity.
  - intros i Hi. apply in_rev in Hi. apply Hv, Hi.
  - apply NoDup_rev, HN.
  - intros k Hk. rewrite rev_length in Hk. rewrite rev_nth_next by exact Hk.
    destruct (HK (length l - S k) ltac:(lia)) as [A _]. rewrite A.
    destruct (length l - S k) as [|j] eqn:E.
    + rewrite nth_overflow; [reflexivity|]. rewrite rev_length. lia.
    + rewrite rev_nth_next by lia. f_equal. lia.
  - rewrite rev_length. lia.
Qed.
