(* The representation invariant of the forest and page index, and its basic consequences. *)
From Verif Require Import Base Big_model Big_set Big_spec.

Fixpoint dll (f : nat -> big) (pv : nat) (l : list nat) : Prop :=
  match l with
  | [] => True
  | x :: r => b_prev (f x) = pv /\ b_next (f x) = hd 0%nat r /\ dll f x r
  end.

Fixpoint before (s : st) (l : list nat) : Prop :=
  match l with
  | [] => True
  | x :: r => (forall y, In y r -> b_end (bigs s x) <= b_begin (bigs s y)) /\ before s r
  end.

Definition disj (s : st) (m n : nat) : Prop :=
  b_end (bigs s m) <= b_begin (bigs s n) \/ b_end (bigs s n) <= b_begin (bigs s m).

Definition node (s : st) (n : nat) : Prop := n = 0%nat \/ live s n.
Definition spans0 (s : st) (n : nat) (q : Z) : Prop := n = 0%nat \/ spans s n q.

Record Inv (nb : nat) (s : st) (K : nat -> list nat) (rk : nat -> nat) : Prop := {
  I_kid : forall p c, In c (K p) <-> (live s c /\ b_parent (bigs s c) = p);
  I_nodup : forall p, NoDup (K p);
  I_dll : forall p, dll (bigs s) 0 (K p);
  I_first : forall n, live s n -> b_first (bigs s n) = hd 0%nat (K n);
  I_par : forall n, live s n -> node s (b_parent (bigs s n));
  I_rk : forall n, live s n -> b_parent (bigs s n) <> 0%nat -> (rk (b_parent (bigs s n)) < rk n)%nat;
  I_geo : forall n, live s n -> 0 < b_begin (bigs s n) < b_end (bigs s n);
  I_bnd : forall n, live s n -> (n < nb)%nat;
  I_in : forall n, live s n -> b_parent (bigs s n) <> 0%nat ->
      b_begin (bigs s (b_parent (bigs s n))) <= b_begin (bigs s n) /\
      b_end (bigs s n) <= b_end (bigs s (b_parent (bigs s n)));
  I_disj : forall p a b, In a (K p) -> In b (K p) -> a <> b -> disj s a b;
  I_before : before s (K 0%nat);
  I_align : forall n, In n (K 0%nat) -> b_begin (bigs s n) mod PAGE = 0 /\ b_end (bigs s n) mod PAGE = 0;
  I_start : In (start s) (K 0%nat);
  I_free : forall n, n <> 0%nat -> in_use (bigs s n) = false -> b_parent (bigs s n) = 0%nat;
  I_pix : forall q, node s (pidx s q) /\ spans0 s (pidx s q) q /\
            forall c, In c (K (pidx s q)) -> ~ spans s c q }.

Lemma live_nz s n : live s n -> n <> 0%nat. Proof. intros [H _]; exact H. Qed.

Section Basics.
Variables (nb : nat) (s : st) (K : nat -> list nat) (rk : nat -> nat).
Hypothesis HI : Inv nb s K rk.

Lemma kid_live p c : In c (K p) -> live s c.
Proof. intro H. apply (I_kid _ _ _ _ HI) in H. tauto. Qed.
Lemma kid_par p c : In c (K p) -> b_parent (bigs s c) = p.
Proof. intro H. apply (I_kid _ _ _ _ HI) in H. tauto. Qed.
Lemma live_kid c : live s c -> In c (K (b_parent (bigs s c))).
Proof. intro H. apply (I_kid _ _ _ _ HI). tauto. Qed.

Lemma bounded_length (l : list nat) : NoDup l -> (forall x, In x l -> live s x) -> (length l < Nat.max 1 nb)%nat.
Proof.
  intros Hn Hl.
  assert (incl l (seq 1 (nb - 1))).
  { intros x Hx. apply in_seq. specialize (Hl x Hx). pose proof (live_nz _ _ Hl).
    pose proof (I_bnd _ _ _ _ HI _ Hl). lia. }
  pose proof (NoDup_incl_length Hn H) as HL. rewrite seq_length in HL.
  lia.
Qed.

Lemma kids_length p : (length (K p) < Nat.max 1 nb)%nat.
Proof. apply bounded_length. apply (I_nodup _ _ _ _ HI). intros x Hx. eapply kid_live; eauto. Qed.

Lemma kids_length' p : (length (K p) < S nb)%nat.
Proof. pose proof (kids_length p). lia. Qed.

Lemma live_dec n : {live s n} + {~ live s n}.
Proof. unfold live. destruct (Nat.eq_dec n 0); [right; tauto|]. destruct (in_use (bigs s n)); [left; tauto|right; intros [_ H]; discriminate]. Qed.

Lemma anc_live a n : anc s a n -> live s n -> live s a.
Proof.
  induction 1 as [|n Hp Ha IH]; auto. intro Hn. apply IH.
  destruct (I_par _ _ _ _ HI _ Hn) as [H|H]; congruence.
Qed.

Lemma anc_rk a n : anc s a n -> live s n -> a = n \/ (rk a < rk n)%nat.
Proof.
  induction 1 as [|n Hp Ha IH]; auto. intro Hn. right.
  pose proof (I_rk _ _ _ _ HI _ Hn Hp).
  destruct (I_par _ _ _ _ HI _ Hn) as [H0|H0]; [congruence|].
  destruct (IH H0); subst; lia.
Qed.

Lemma anc_range a n : anc s a n -> live s n ->
  b_begin (bigs s a) <= b_begin (bigs s n) /\ b_end (bigs s n) <= b_end (bigs s a).
Proof.
  induction 1 as [|n Hp Ha IH]; [lia|]. intro Hn.
  pose proof (I_in _ _ _ _ HI _ Hn Hp).
  destruct (I_par _ _ _ _ HI _ Hn) as [H0|H0]; [congruence|].
  specialize (IH H0). lia.
Qed.

Lemma anc_trans a b c : anc s a b -> anc s b c -> anc s a c.
Proof. intros H1 H2; revert H1. induction H2; auto. intro. apply anc_up; auto. Qed.

Lemma anc_child a n : anc s a n -> live s n -> a <> n ->
  exists c, live s c /\ b_parent (bigs s c) = a /\ anc s c n.
Proof.
  induction 1 as [|n Hp Ha IH]; [congruence|]. intros Hn Hne.
  destruct (I_par _ _ _ _ HI _ Hn) as [H0|H0]; [congruence|].
  destruct (Nat.eq_dec a (b_parent (bigs s n))) as [->|Hne2].
  - exists n; repeat split; auto; try apply anc_refl; apply Hn.
  - destruct (IH H0 Hne2) as (c & Hc & Hpc & Hac). exists c. split; [exact Hc|split; [exact Hpc|]].
    apply anc_up; auto.
Qed.

Lemma anc_antisym a b : live s a -> live s b -> anc s a b -> anc s b a -> a = b.
Proof.
  intros La Lb H1 H2. destruct (anc_rk _ _ H1 Lb); auto. destruct (anc_rk _ _ H2 La); auto. lia.
Qed.

Lemma covers_anc a n x : anc s a n -> live s n -> covers s n x -> covers s a x.
Proof. intros H Hn. pose proof (anc_range _ _ H Hn). unfold covers. lia. Qed.

Lemma kids_cover_same p a b x : In a (K p) -> In b (K p) -> covers s a x -> covers s b x -> a = b.
Proof.
  intros Ha Hb Hca Hcb. destruct (Nat.eq_dec a b); auto.
  pose proof (I_disj _ _ _ _ HI _ _ _ Ha Hb n) as [H|H]; unfold covers in *; lia.
Qed.

(* two live allocations that share an address are nested *)
Lemma overlap_chain : forall k n m x, (rk n + rk m < k)%nat -> live s n -> live s m ->
  covers s n x -> covers s m x -> anc s n m \/ anc s m n.
Proof.
  induction k as [|k IH]; [lia|]. intros n m x Hk Hn Hm Cn Cm.
  destruct (Nat.eq_dec (b_parent (bigs s n)) 0) as [Pn|Pn].
  - destruct (Nat.eq_dec (b_parent (bigs s m)) 0) as [Pm|Pm].
    + left. assert (n = m).
      { eapply kids_cover_same with (p := 0%nat); eauto; apply (I_kid _ _ _ _ HI); auto. }
      subst; apply anc_refl.
    + destruct (I_par _ _ _ _ HI _ Hm) as [H0|Hpm]; [congruence|].
      pose proof (I_rk _ _ _ _ HI _ Hm Pm).
      assert (Hup : anc s (b_parent (bigs s m)) m) by (apply anc_up; auto; apply anc_refl).
      destruct (IH n (b_parent (bigs s m)) x) as [H1|H1]; auto; [lia| eapply covers_anc; eauto | |].
      * left. eapply anc_trans; eauto.
      * assert (b_parent (bigs s m) = n).
        { clear - H1 Pn. remember n as nn eqn:E in H1. destruct H1; congruence. }
        subst. left. auto.
  - destruct (I_par _ _ _ _ HI _ Hn) as [H0|Hpn]; [congruence|].
    pose proof (I_rk _ _ _ _ HI _ Hn Pn).
    assert (Hup : anc s (b_parent (bigs s n)) n) by (apply anc_up; auto; apply anc_refl).
    destruct (IH (b_parent (bigs s n)) m x) as [H1|H1]; auto; [lia| eapply covers_anc; eauto | |].
    + destruct (Nat.eq_dec (b_parent (bigs s n)) m) as [E|E]; [subst; auto|].
      destruct (anc_child _ _ H1 Hm E) as (c & Hc & Hpc & Hac).
      assert (c = n).
      { eapply kids_cover_same with (p := b_parent (bigs s n)) (x := x).
        - apply (I_kid _ _ _ _ HI); auto.
        - apply live_kid; auto.
        - eapply covers_anc; eauto.
        - auto. }
      subst; auto.
    + right. eapply anc_trans; eauto.
Qed.

Lemma chain n m x : live s n -> live s m -> covers s n x -> covers s m x -> anc s n m \/ anc s m n.
Proof. intros; eapply overlap_chain; eauto. Qed.

Lemma spans_covers n q : spans s n q -> covers s n (PAGE * q).
Proof. unfold spans, covers, PAGE. lia. Qed.

Lemma live_spans_range n q : spans s n q -> forall x, PAGE * q <= x < PAGE * q + PAGE -> covers s n x.
Proof. unfold spans, covers. lia. Qed.

Lemma anc_spans a n q : anc s a n -> live s n -> spans s n q -> spans s a q.
Proof. intros H Hn. pose proof (anc_range _ _ H Hn). unfold spans. lia. Qed.

(* the page entry is below every node spanning the page *)
Lemma pix_deepest q m : live s m -> spans s m q -> pidx s q <> 0%nat /\ anc s m (pidx s q).
Proof.
  intros Hm Hs. destruct (I_pix _ _ _ _ HI q) as (Hn & Hsp & Hk).
  destruct (Nat.eq_dec (pidx s q) 0) as [E|E].
  - exfalso. rewrite E in *.
    (* the root ancestor of m is a top-level node spanning q *)
    assert (exists r, anc s r m /\ b_parent (bigs s r) = 0%nat) as (r & Hr & Hr0).
    { clear - HI Hm. remember (rk m) as k eqn:E. revert m Hm E.
      induction k as [k IH] using lt_wf_ind; intros m Hm E.
      destruct (Nat.eq_dec (b_parent (bigs s m)) 0) as [E0|E0].
      - exists m; split; auto; apply anc_refl.
      - destruct (I_par _ _ _ _ HI _ Hm) as [H0|H0]; [congruence|].
        pose proof (I_rk _ _ _ _ HI _ Hm E0).
        destruct (IH (rk (b_parent (bigs s m))) ltac:(lia) _ H0 eq_refl) as (r & Hr & Hr0).
        exists r; split; auto. apply anc_up; auto. }
    pose proof (anc_live _ _ Hr Hm) as Hlr.
    apply (Hk r).
    + apply (I_kid _ _ _ _ HI); auto.
    + eapply anc_spans; eauto.
  - split; auto. destruct Hn as [?|Hn]; [congruence|]. destruct Hsp as [?|Hsp]; [congruence|].
    destruct (chain m (pidx s q) (PAGE * q)) as [H|H]; auto using spans_covers.
    destruct (Nat.eq_dec (pidx s q) m) as [->|E2]; [apply anc_refl|].
    destruct (anc_child _ _ H Hm E2) as (c & Hc & Hpc & Hac).
    exfalso. apply (Hk c).
    + apply (I_kid _ _ _ _ HI); auto.
    + eapply anc_spans; eauto.
Qed.

(* a page spanned by p and by no child of p is indexed to p *)
Lemma pix_is p q : node s p -> spans0 s p q -> (forall c, In c (K p) -> ~ spans s c q) -> pidx s q = p.
Proof.
  intros Hp Hsp Hk. destruct (I_pix _ _ _ _ HI q) as (Hn & Hs & Hk').
  destruct Hp as [->|Hp].
  - destruct Hn as [Hn|Hn]; auto. exfalso.
    destruct Hs as [Hs|Hs]; [apply (live_nz _ _ Hn); auto|].
    assert (exists r, anc s r (pidx s q) /\ b_parent (bigs s r) = 0%nat) as (r & Hr & Hr0).
    { clear - HI Hn. remember (pidx s q) as m eqn:E0; clear E0. remember (rk m) as k eqn:E. revert m Hn E.
      induction k as [k IH] using lt_wf_ind; intros m Hm E.
      destruct (Nat.eq_dec (b_parent (bigs s m)) 0) as [E0|E0].
      - exists m; split; auto; apply anc_refl.
      - destruct (I_par _ _ _ _ HI _ Hm) as [H0|H0]; [congruence|].
        pose proof (I_rk _ _ _ _ HI _ Hm E0).
        destruct (IH (rk (b_parent (bigs s m))) ltac:(lia) _ H0 eq_refl) as (r & Hr & Hr0).
        exists r; split; auto. apply anc_up; auto. }
    apply (Hk r).
    + apply (I_kid _ _ _ _ HI); split; auto. eapply anc_live; eauto.
    + eapply anc_spans; eauto.
  - destruct Hsp as [->|Hsp]; [destruct (live_nz _ _ Hp); auto|].
    destruct (pix_deepest q p Hp Hsp) as [Hnz Ha].
    destruct Hn as [?|Hn]; [congruence|].
    destruct Hs as [?|Hs]; [congruence|].
    destruct (Nat.eq_dec p (pidx s q)) as [E|E]; auto.
    destruct (anc_child _ _ Ha Hn E) as (c & Hc & Hpc & Hac). exfalso. apply (Hk c).
    + apply (I_kid _ _ _ _ HI); auto.
    + eapply anc_spans; eauto.
Qed.

End Basics.
