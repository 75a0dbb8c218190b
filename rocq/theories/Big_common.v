(* The common enclosing allocation of two addresses. *)
From Verif Require Import Base Big_model Big_set Big_spec Big_inv Big_lookup.

Section Common.
Variables (nb : nat) (s : st) (K : nat -> list nat) (rk : nat -> nat).
Hypothesis HI : Inv nb s K rk.

Lemma level_fun n d e : level s n d -> level s n e -> d = e.
Proof.
  intro H. revert e. induction H as [|n d Hn H IH]; intros e He; inversion He; subst; auto; congruence || (f_equal; auto).
Qed.

Lemma depth_ok : forall fuel cur V, NoDup V -> (forall v, In v V -> live s v /\ (cur = 0%nat \/ (rk cur < rk v)%nat)) ->
  node s cur -> (nb < length V + fuel)%nat ->
  exists d, depth fuel s cur = Ok d /\ level s cur d.
Proof.
  induction fuel as [|f IH]; intros cur V Hnd HV Hc Hf.
  - exfalso. pose proof (bounded_length _ _ _ _ HI V Hnd (fun x Hx => proj1 (HV x Hx))) as Hb.
    destruct V as [|v V]; [cbn in *; lia|]. lia.
  - cbn [depth]. destruct (Nat.eqb_spec cur 0) as [->|E]; [exists 0%nat; split; [auto|constructor]|].
    destruct Hc as [Hc|Hc]; [congruence|].
    destruct (IH (b_parent (bigs s cur)) (cur :: V)) as (d & Hd & Hl).
    + constructor; auto. intro Hin. destruct (HV _ Hin) as [_ [H|H]]; [auto|lia].
    + intros v Hv. destruct (Nat.eq_dec (b_parent (bigs s cur)) 0) as [Ep|Ep].
      * split; [destruct Hv as [<-|Hv]; auto; apply HV; auto|left; auto].
      * pose proof (I_rk _ _ _ _ HI _ Hc Ep). destruct Hv as [<-|Hv]; [split; auto|].
        destruct (HV v Hv) as [L [H2|H2]]; [congruence|]. split; auto. right. lia.
    + apply (I_par _ _ _ _ HI); auto.
    + cbn [length]. lia.
    + rewrite Hd. cbn [bind]. exists (S d). split; auto. constructor; auto.
Qed.

Lemma level_anc a n d e : anc s a n -> level s a d -> level s n e -> n <> 0%nat -> (d <= e)%nat /\ (d = e -> a = n).
Proof.
  intro H. revert e. induction H as [|n Hp Ha IH]; intros e Hd He Hz.
  - rewrite (level_fun _ _ _ Hd He). auto.
  - inversion He as [|? e' Hn He']; subst; [congruence|].
    destruct (IH e' Hd He' Hp). split; [lia|]. intro. lia.
Qed.

Lemma level_live n d : live s n -> level s n d -> exists d', d = S d' /\ level s (b_parent (bigs s n)) d'.
Proof. intros Hn H. inversion H; subst; [exfalso; apply Hn; auto|]. eauto. Qed.
Lemma level_exists n : node s n -> exists d, level s n d.
Proof.
  intro Hn. destruct (depth_ok (S nb) n []) as (d & _ & H); [constructor|intros v []|auto|cbn; lia|]. eauto.
Qed.

Definition lca (b1 b2 r : nat) : Prop := anc s r b1 /\ anc s r b2 /\ forall x, anc s x b1 -> anc s x b2 -> anc s x r.

(* climbing b1 only, with a budget of d2 steps *)
Lemma phase2 c2 : live s c2 -> forall d2 fuel c1 d1, node s c1 -> level s c1 d1 -> (d2 < d1)%nat -> (d2 < fuel)%nat ->
  exists r, common_rec fuel s c1 d1 c2 d2 = Ok r /\ (r = 0%nat \/ r = c2 /\ anc s c2 c1) /\
    (anc s c2 c1 -> forall e, level s c2 e -> (d1 <= d2 + e)%nat -> r = c2).
Proof.
  intro L2. induction d2 as [|d2 IH]; intros fuel c1 d1 N1 V1 Hlt Hf; (destruct fuel as [|f]; [lia|]); cbn [common_rec].
  - destruct (Nat.eqb_spec c1 c2) as [->|E]; [exists c2; split; [auto|]; split; [right; split; auto; constructor|auto]|].
    rewrite orb_true_r. exists 0%nat. split; auto. split; auto. intros Ha e He Hle.
    assert (Hz : c1 <> 0%nat) by (inversion V1; subst; [lia|auto]). destruct (level_anc _ _ _ _ Ha He V1 Hz) as [H1 H2]. exfalso. apply E. symmetry. apply H2. lia.
  - destruct (Nat.eqb_spec c1 c2) as [->|E]; [exists c2; split; [auto|]; split; [right; split; auto; constructor|auto]|].
    destruct (Nat.eqb_spec d1 0) as [E0|E0]; [lia|]. cbn [Nat.eqb orb].
    destruct (Nat.ltb_spec (S d2) d1) as [_|]; [|lia].
    inversion V1 as [|? d1' Hn V1']; subst; [lia|]. replace (S d1' - 1)%nat with d1' by lia. replace (S d2 - 1)%nat with d2 by lia.
    assert (L1 : live s c1) by (destruct N1; [congruence|auto]).
    destruct (IH f (b_parent (bigs s c1)) d1') as (r & A & B & C); [apply (I_par _ _ _ _ HI); auto|auto|lia|lia|].
    exists r. split; auto. split.
    + destruct B as [B|[B1 B2]]; auto. right. split; auto. apply anc_up; auto.
      intro Ez. rewrite Ez in V1'. inversion V1'; subst; [lia|congruence].
    + intros Ha e He Hle. inversion Ha; subst; [congruence|]. apply C with (e := e); auto. lia.
Qed.

Lemma lca_step b1 c2 r : ~ anc s c2 b1 -> b_parent (bigs s c2) <> 0%nat -> lca b1 (b_parent (bigs s c2)) r -> lca b1 c2 r.
Proof.
  intros Hn Hp (A & B & C). split; auto. split; [apply anc_up; auto|]. intros x Hx1 Hx2.
  inversion Hx2; subst; [contradiction|]. auto.
Qed.

(* climbing b2 while it is at least as deep as b1 *)
Lemma phase1 b1 d1 : live s b1 -> level s b1 d1 -> forall d2 fuel c2, live s c2 -> level s c2 d2 -> (d1 <= d2)%nat -> (d1 + d2 < fuel)%nat ->
  exists r, common_rec fuel s b1 d1 c2 d2 = Ok r /\ (r = 0%nat \/ live s r /\ lca b1 c2 r) /\
    (anc s b1 c2 -> r = b1) /\
    (~ anc s b1 c2 -> b_parent (bigs s b1) <> 0%nat -> anc s (b_parent (bigs s b1)) c2 -> r = b_parent (bigs s b1)).
Proof.
  intros L1 V1. induction d2 as [|d2 IH]; intros fuel c2 L2 V2 Hle Hf.
  { destruct (level_live _ _ L2 V2) as (? & ? & _). lia. }
  destruct (level_live _ _ L1 V1) as (e1 & E1 & V1').
  destruct fuel as [|f]; [lia|]. cbn [common_rec].
  destruct (Nat.eqb_spec b1 c2) as [E|E].
  { subst c2. exists b1. split; auto. split; [right; split; auto; split; [constructor|split; [constructor|auto]]|]. split; auto. intro H; exfalso; apply H; constructor. }
  destruct (Nat.eqb_spec d1 0) as [E0|E0]; [lia|]. cbn [Nat.eqb orb].
  destruct (Nat.ltb_spec (S d2) d1) as [|_]; [lia|]. replace (S d2 - 1)%nat with d2 by lia.
  inversion V2 as [|? d2' Hn V2']; subst d2' n. set (c2' := b_parent (bigs s c2)) in *.
  assert (Hnanc : ~ anc s c2 b1).
  { intro Ha. destruct (level_anc _ _ _ _ Ha V2 V1 (proj1 L1)) as [H1 H2]. apply E. symmetry. apply H2. lia. }
  assert (Hmove : forall x, anc s x b1 -> anc s x c2 -> c2' <> 0%nat /\ anc s x c2').
  { intros x Hx1 Hx2. inversion Hx2; subst; [contradiction|]. auto. }
  assert (Hmove1 : anc s b1 c2 -> c2' <> 0%nat /\ anc s b1 c2') by (intro H; apply Hmove; auto; constructor).
  destruct (Nat.le_gt_cases d1 d2) as [Hd|Hd].
  - assert (L2' : live s c2').
    { destruct (I_par _ _ _ _ HI _ L2) as [Hz|Hz]; [|auto]. fold c2' in Hz. rewrite Hz in V2'. inversion V2'; subst; [lia|congruence]. }
    destruct (IH f c2' L2' V2' Hd ltac:(lia)) as (r & A & B & C & D). exists r. split; auto. split; [|split].
    + destruct B as [B|[B1 B2]]; [left; auto|right; split; auto]. apply lca_step; auto. apply L2'.
    + intro H. apply C. apply Hmove1; auto.
    + intros H H1 H2. apply D; auto.
      * intro Hx. apply H. apply anc_up; auto. apply L2'.
      * apply Hmove; auto. apply anc_up; auto. constructor.
  - assert (Hd2 : e1 = d2) by lia. subst e1. subst d1.
    assert (Hno : ~ anc s b1 c2).
    { intro H. destruct (Hmove1 H) as [Hz H2]. destruct (level_anc _ _ _ _ H2 V1 V2' Hz) as [H3 _]. lia. }
    destruct (Nat.eq_dec c2' 0) as [Ez|Ez].
    + rewrite Ez in V2'. inversion V2'; subst; [|congruence]. exists 0%nat. rewrite Ez.
      destruct f as [|f]; [lia|]. cbn [common_rec]. destruct (Nat.eqb_spec b1 0) as [Eb|_]; [exfalso; apply L1; auto|]. cbn [Nat.eqb orb].
      split; auto. split; auto. split; [tauto|]. intros _ Hp Ha. destruct (Hmove _ ltac:(apply anc_up; [exact Hp|constructor]) Ha). congruence.
    + assert (L2' : live s c2') by (destruct (I_par _ _ _ _ HI _ L2) as [Hz|Hz]; [exfalso; apply Ez; exact Hz|exact Hz]).
      destruct (phase2 c2' L2' d2 f b1 (S d2)) as (r & A & B & C); [right; auto|auto|lia|lia|].
      exists r. split; auto. split; [|split; [tauto|]].
      * destruct B as [B|[B1 B2]]; [left; auto|right]. subst r. split; auto. apply lca_step; auto. split; auto. split; [constructor|auto].
      * intros _ Hp Ha. destruct (Hmove _ ltac:(apply anc_up; [exact Hp|constructor]) Ha) as [Hz Ha'].
        assert (Heq : b_parent (bigs s b1) = c2') by (destruct (level_anc _ _ _ _ Ha' V1' V2' Hz) as [_ H2]; auto).
        rewrite Heq. apply C with (e := d2); auto.
        -- rewrite <- Heq. apply anc_up; auto. constructor.
        -- destruct (level_live _ _ L2' V2') as (? & ? & _). lia.
Qed.

Lemma lca_inner x y b1 b2 r : innermost s x b1 -> innermost s y b2 -> live s r -> lca b1 b2 r -> innermost_both s x y r.
Proof.
  intros (L1 & C1 & M1) (L2 & C2 & M2) Lr (A & B & C). split; auto.
  split; [apply (covers_anc _ _ _ _ HI r b1); auto|]. split; [apply (covers_anc _ _ _ _ HI r b2); auto|]. intros m Lm Hx Hy. apply C; auto.
Qed.

(* What get_common_parent_bigalloc answers: always sound; complete when the first
   address' allocation (or its parent, when it is no deeper than the second's) encloses
   the second address, and when the second's encloses the first not more than twice as deep. *)
Lemma common_parent_partial x y :
  exists b1 b2 d1 d2 r, lookup_answer s x b1 /\ lookup_answer s y b2 /\ level s b1 d1 /\ level s b2 d2 /\
    common_parent nb s x y = Ok r /\
    (r = 0%nat \/ innermost_both s x y r) /\
    (b1 <> 0%nat -> covers s b1 y -> r = b1) /\
    (b1 <> 0%nat -> (d1 <= d2)%nat -> b_parent (bigs s b1) <> 0%nat -> ~ covers s b1 y -> covers s (b_parent (bigs s b1)) y -> r = b_parent (bigs s b1)) /\
    (b2 <> 0%nat -> (d2 < d1 <= 2 * d2)%nat -> covers s b2 x -> r = b2).
Proof.
  destruct (find_deepest_correct _ _ _ _ HI x) as (b1 & F1 & A1).
  destruct (find_deepest_correct _ _ _ _ HI y) as (b2 & F2 & A2).
  assert (N : forall z b, lookup_answer s z b -> node s b).
  { intros z b H. unfold lookup_answer in H. destruct (Nat.eqb_spec b 0); [left; auto|right; apply H]. }
  pose proof (N _ _ A1) as N1. pose proof (N _ _ A2) as N2.
  destruct (depth_ok (S nb) b1 []) as (d1 & D1 & V1); [constructor|intros v []|auto|cbn; lia|].
  destruct (depth_ok (S nb) b2 []) as (d2 & D2 & V2); [constructor|intros v []|auto|cbn; lia|].
  unfold common_parent. rewrite F1, F2. cbn [bind]. rewrite D1, D2. cbn [bind].
  destruct (Nat.eq_dec b1 0) as [Z1|Z1].
  { subst b1. inversion V1; subst; [|congruence]. exists 0%nat, b2, 0%nat, d2.
    unfold lookup_answer in A1. cbn in A1.
    cbn [Nat.add common_rec]. destruct (Nat.eqb_spec 0 b2) as [E|E].
    - exists 0%nat. split; [exact A1|]. split; [auto|]. split; [auto|]. split; [auto|]. split; [auto|]. split; [auto|]. split; [congruence|]. split; [congruence|]. lia.
    - cbn [Nat.eqb orb]. exists 0%nat. split; [exact A1|]. split; [auto|]. split; [auto|]. split; [auto|]. split; [auto|]. split; [auto|]. split; [congruence|]. split; [congruence|]. lia. }
  destruct N1 as [N1|L1]; [congruence|].
  assert (I1 : innermost s x b1) by (unfold lookup_answer in A1; destruct (Nat.eqb_spec b1 0); [congruence|auto]).
  destruct (Nat.eq_dec b2 0) as [Z2|Z2].
  { subst b2. inversion V2; subst; [|congruence]. exists b1, 0%nat, d1, 0%nat, 0%nat. split; [auto|]. split; [auto|]. split; [auto|]. split; [auto|].
    unfold lookup_answer in A2. cbn in A2. split.
    { cbn [common_rec]. destruct (Nat.eqb_spec b1 0); [congruence|]. rewrite orb_true_r. reflexivity. }
    split; [auto|]. split; [intros _ H; exfalso; eapply A2; eauto|]. split; [|lia].
    intros _ _ H1 _ H2. exfalso. eapply A2; [|eauto]. destruct (I_par _ _ _ _ HI _ L1); [congruence|auto]. }
  destruct N2 as [N2|L2]; [congruence|].
  assert (I2 : innermost s y b2) by (unfold lookup_answer in A2; destruct (Nat.eqb_spec b2 0); [congruence|auto]).
  exists b1, b2, d1, d2.
  destruct (Nat.le_gt_cases d1 d2) as [Hd|Hd].
  - destruct (phase1 b1 d1 L1 V1 d2 (S (d1 + d2)) b2 L2 V2 Hd ltac:(lia)) as (r & A & B & C & D).
    exists r. split; [auto|]. split; [auto|]. split; [auto|]. split; [auto|]. split; [exact A|].
    split; [destruct B as [B|[B1 B2]]; [auto|right; eapply lca_inner; eauto]|].
    split; [intros _ H; apply C; apply (proj2 (proj2 I2)); auto|]. split; [|lia].
    intros _ _ Hp H1 H2. apply D; auto.
    + intro Ha. apply H1. apply (covers_anc _ _ _ _ HI b1 b2); auto. apply I2.
    + apply (proj2 (proj2 I2)); auto. destruct (I_par _ _ _ _ HI _ L1); [congruence|auto].
  - destruct (phase2 b2 L2 d2 (S (d1 + d2)) b1 d1 ltac:(right; auto) V1 Hd ltac:(lia)) as (r & A & B & C).
    exists r. split; [auto|]. split; [auto|]. split; [auto|]. split; [auto|]. split; [exact A|].
    split.
    { destruct B as [B|[B1 B2]]; [auto|right]. subst r. eapply lca_inner; eauto. split; auto. split; [constructor|auto]. }
    split.
    { intros _ H. assert (Ha : anc s b1 b2) by (apply (proj2 (proj2 I2)); auto). destruct (level_anc _ _ _ _ Ha V1 V2 Z2). lia. }
    split; [lia|]. intros _ Hle H. apply C with (e := d2); [apply (proj2 (proj2 I1)); auto|auto|lia].
Qed.
End Common.
