(* Correctness of the address lookups in states satisfying the invariant. *)
From Verif Require Import Base Big_model Big_set Big_spec Big_inv.

Lemma contains_spec s n a : contains (bigs s n) a = true <-> covers s n a.
Proof. unfold contains, covers. lia. Qed.

Lemma hd_In (l : list nat) : hd 0%nat l <> 0%nat -> In (hd 0%nat l) l.
Proof. destruct l; simpl; auto. Qed.

Lemma dll_tail f pv x l : dll f pv (x :: l) -> dll f x l.
Proof. simpl; tauto. Qed.

Section Walks.
Variables (nb : nat) (s : st) (K : nat -> list nat) (rk : nat -> nat).
Hypothesis HI : Inv nb s K rk.

Lemma fcc_spec a : forall l pv fuel, dll (bigs s) pv l -> (forall x, In x l -> x <> 0%nat) -> (length l < fuel)%nat ->
  exists c, first_child_containing fuel s (hd 0%nat l) a = Ok c /\
    ((c = 0%nat /\ forall x, In x l -> ~ covers s x a) \/ (In c l /\ covers s c a)).
Proof.
  induction l as [|x l IH]; intros pv fuel Hd Hnz Hf; (destruct fuel as [|fuel]; [lia|]); cbn [first_child_containing hd].
  - exists 0%nat. split; [reflexivity|]. left; split; [reflexivity|intros y []].
  - destruct (Nat.eqb_spec x 0); [exfalso; apply (Hnz x); simpl; auto|].
    destruct (contains (bigs s x) a) eqn:E.
    + exists x. split; auto. right; split; [simpl; auto|apply contains_spec; auto].
    + destruct Hd as (Hp & Hn & Hd). rewrite Hn.
      destruct (IH x fuel Hd ltac:(intros; apply Hnz; simpl; auto) ltac:(simpl in Hf; lia)) as (c & Hc & Hr).
      exists c; split; auto. destruct Hr as [[-> Hr]|[Hr1 Hr2]].
      * left; split; auto. intros y [<-|Hy]; auto. rewrite <- contains_spec; congruence.
      * right; split; simpl; auto.
Qed.

Lemma lcc_spec a acc : forall l pv fuel, dll (bigs s) pv l -> (forall x, In x l -> x <> 0%nat) -> (length l < fuel)%nat ->
  exists c, last_child_containing fuel s (hd 0%nat l) a acc = Ok c /\
    ((c = acc /\ forall x, In x l -> ~ covers s x a) \/ (In c l /\ covers s c a)).
Proof.
  intro l; revert acc; induction l as [|x l IH]; intros acc pv fuel Hd Hnz Hf; (destruct fuel as [|fuel]; [lia|]);
    cbn [last_child_containing hd].
  - exists acc. split; [reflexivity|]. left; split; [reflexivity|intros y []].
  - destruct (Nat.eqb_spec x 0); [exfalso; apply (Hnz x); simpl; auto|].
    destruct Hd as (Hp & Hn & Hd). rewrite Hn.
    destruct (IH (if contains (bigs s x) a then x else acc) x fuel Hd ltac:(intros; apply Hnz; simpl; auto) ltac:(simpl in Hf; lia)) as (c & Hc & Hr).
    exists c; split; auto. destruct Hr as [[-> Hr]|[Hr1 Hr2]]; [|right; split; simpl; auto].
    destruct (contains (bigs s x) a) eqn:E.
    + right; split; [simpl; auto|apply contains_spec; auto].
    + left; split; auto. intros y [<-|Hy]; auto. rewrite <- contains_spec; congruence.
Qed.

Lemma kid_nz p x : In x (K p) -> x <> 0%nat.
Proof. intro H. eapply live_nz, kid_live; eauto. Qed.

Lemma fcc_kids n a : live s n ->
  exists c, first_child_containing (S nb) s (b_first (bigs s n)) a = Ok c /\
    ((c = 0%nat /\ forall x, In x (K n) -> ~ covers s x a) \/ (In c (K n) /\ covers s c a)).
Proof.
  intro Hn. rewrite (I_first _ _ _ _ HI _ Hn). eapply fcc_spec.
  - apply (I_dll _ _ _ _ HI).
  - apply kid_nz.
  - eapply kids_length'; eauto.
Qed.
Lemma lcc_kids n a : live s n ->
  exists c, last_child_containing (S nb) s (b_first (bigs s n)) a n = Ok c /\
    ((c = n /\ forall x, In x (K n) -> ~ covers s x a) \/ (In c (K n) /\ covers s c a)).
Proof.
  intro Hn. rewrite (I_first _ _ _ _ HI _ Hn). eapply lcc_spec.
  - apply (I_dll _ _ _ _ HI).
  - apply kid_nz.
  - eapply kids_length'; eauto.
Qed.

(* A descent that has already passed the nodes V cannot run out of fuel. *)
Definition passed (V : list nat) (cur : nat) : Prop :=
  NoDup V /\ forall v, In v V -> live s v /\ (rk v < rk cur)%nat.

Lemma passed_nil cur : passed [] cur.
Proof. split; [constructor|intros v []]. Qed.
Lemma passed_cons V cur c : passed V cur -> live s cur -> (rk cur < rk c)%nat -> passed (cur :: V) c.
Proof.
  intros [Hn Hv] Hc Hr. split.
  - constructor; auto. intro H. apply Hv in H. lia.
  - intros v [<-|H]; [auto|]. apply Hv in H. split; [tauto|lia].
Qed.
Lemma passed_bound V cur : passed V cur -> live s cur -> (length V + 1 < Nat.max 1 nb)%nat.
Proof.
  intros [Hn Hv] Hc.
  assert (H : (length (cur :: V) < Nat.max 1 nb)%nat).
  { eapply bounded_length; eauto.
    - constructor; auto. intro H. apply Hv in H. lia.
    - intros x [<-|H]; [auto|]. apply Hv in H. tauto. }
  cbn [length] in H. lia.
Qed.

Lemma kid_rk p c : live s p -> In c (K p) -> (rk p < rk c)%nat.
Proof.
  intros Hp Hc. pose proof (kid_par _ _ _ _ HI _ _ Hc) as E. pose proof (kid_live _ _ _ _ HI _ _ Hc) as L.
  rewrite <- E. apply (I_rk _ _ _ _ HI); auto. rewrite E. apply (live_nz _ _ Hp).
Qed.
Lemma kid_anc p c : live s p -> In c (K p) -> anc s p c.
Proof.
  intros Hp Hc. pose proof (kid_par _ _ _ _ HI _ _ Hc) as E. rewrite <- E. apply anc_up; [|apply anc_refl].
  rewrite E. apply (live_nz _ _ Hp).
Qed.

Lemma innermost_intro n a : live s n -> covers s n a -> (forall x, In x (K n) -> ~ covers s x a) -> innermost s a n.
Proof.
  intros Hn Hc Hk. split; [auto|split; [auto|]]. intros m Hm Hcm.
  destruct (chain _ _ _ _ HI m n a Hm Hn Hcm Hc) as [H|H]; auto.
  destruct (Nat.eq_dec n m) as [->|E]; [apply anc_refl|].
  destruct (anc_child _ _ _ _ HI _ _ H Hm E) as (c & Hlc & Hpc & Hac).
  exfalso. apply (Hk c).
  - apply (I_kid _ _ _ _ HI); auto.
  - eapply covers_anc; eauto.
Qed.

Lemma deepest_rec_spec a : forall fuel cur V, passed V cur -> live s cur -> covers s cur a ->
  (nb < length V + fuel)%nat ->
  exists n, deepest_rec nb fuel s cur a = Ok n /\ innermost s a n /\ anc s cur n.
Proof.
  induction fuel as [|fuel IH]; intros cur V HV Hl Hc Hf.
  - pose proof (passed_bound _ _ HV Hl). lia.
  - cbn [deepest_rec]. destruct (fcc_kids cur a Hl) as (c & -> & Hr). cbn [bind].
    destruct Hr as [[-> Hr]|[Hr1 Hr2]].
    + rewrite Nat.eqb_refl. exists cur. split; [auto|split; [|apply anc_refl]]. apply innermost_intro; auto.
    + destruct (Nat.eqb_spec c 0) as [E|E]; [exfalso; eapply kid_nz; eauto|].
      pose proof (kid_live _ _ _ _ HI _ _ Hr1) as Hcl. pose proof (kid_rk _ _ Hl Hr1).
      destruct (IH c (cur :: V)) as (n & H1 & H2 & H3); auto using passed_cons.
      * simpl; lia.
      * exists n. split; [auto|split;[auto|]]. eapply anc_trans; eauto using kid_anc.
Qed.

Lemma leaf_rec_spec a : forall fuel cur V, passed V cur -> live s cur -> covers s cur a ->
  (nb < length V + fuel)%nat ->
  exists n, leaf_rec nb fuel s cur a = Ok n /\ innermost s a n.
Proof.
  induction fuel as [|fuel IH]; intros cur V HV Hl Hc Hf.
  - pose proof (passed_bound _ _ HV Hl). lia.
  - cbn [leaf_rec]. destruct (lcc_kids cur a Hl) as (c & -> & Hr). cbn [bind].
    destruct Hr as [[-> Hr]|[Hr1 Hr2]].
    + rewrite Nat.eqb_refl. exists cur. split; [auto|]. apply innermost_intro; auto.
    + pose proof (kid_rk _ _ Hl Hr1) as Hrk.
      destruct (Nat.eqb_spec c cur) as [E|E]; [subst; lia|].
      pose proof (kid_live _ _ _ _ HI _ _ Hr1) as Hcl.
      destruct (IH c (cur :: V)) as (n & H1 & H2); auto using passed_cons.
      * simpl; lia.
      * exists n; auto.
Qed.

Lemma pagenum_in a : PAGE * PAGENUM a <= a < PAGE * PAGENUM a + PAGE.
Proof. unfold PAGENUM, PAGE. lia. Qed.

Lemma root_of m : live s m -> exists r, anc s r m /\ b_parent (bigs s r) = 0%nat /\ live s r.
Proof.
  intro Hm. remember (rk m) as k eqn:E. revert m Hm E.
  induction k as [k IH] using lt_wf_ind; intros m Hm E.
  destruct (Nat.eq_dec (b_parent (bigs s m)) 0) as [E0|E0].
  - exists m; split; [apply anc_refl|auto].
  - destruct (I_par _ _ _ _ HI _ Hm) as [H0|H0]; [congruence|].
    pose proof (I_rk _ _ _ _ HI _ Hm E0).
    destruct (IH (rk (b_parent (bigs s m))) ltac:(lia) _ H0 eq_refl) as (r & Hr & Hr0).
    exists r; split; auto. apply anc_up; auto.
Qed.

Lemma toplevel_spans r a : live s r -> b_parent (bigs s r) = 0%nat -> covers s r a -> spans s r (PAGENUM a).
Proof.
  intros Hr Hp Hc. assert (Hin : In r (K 0%nat)) by (apply (I_kid _ _ _ _ HI); auto).
  pose proof (I_align _ _ _ _ HI _ Hin). unfold covers, spans, PAGENUM, PAGE in *. lia.
Qed.

Lemma pix_zero_none a : pidx s (PAGENUM a) = 0%nat -> forall m, live s m -> ~ covers s m a.
Proof.
  intros E m Hm Hc. destruct (root_of m Hm) as (r & Hr & Hr0 & Hlr).
  assert (Hs : spans s r (PAGENUM a)) by (apply toplevel_spans; auto; eapply covers_anc; eauto).
  destruct (pix_deepest _ _ _ _ HI _ _ Hlr Hs). congruence.
Qed.

Lemma pix_covers a : pidx s (PAGENUM a) <> 0%nat -> live s (pidx s (PAGENUM a)) /\ covers s (pidx s (PAGENUM a)) a.
Proof.
  intro E. destruct (I_pix _ _ _ _ HI (PAGENUM a)) as (Hn & Hsp & _).
  destruct Hn as [?|Hn]; [congruence|]. destruct Hsp as [?|Hsp]; [congruence|].
  split; auto. eapply live_spans_range; eauto. apply pagenum_in.
Qed.

Lemma leaf_bigalloc_correct a : exists r, leaf_bigalloc nb s a = Ok r /\ lookup_answer s a r.
Proof.
  unfold leaf_bigalloc. destruct (Nat.eqb_spec (pidx s (PAGENUM a)) 0) as [E|E].
  - exists 0%nat. split; auto. unfold lookup_answer. rewrite Nat.eqb_refl. apply pix_zero_none; auto.
  - destruct (pix_covers a E) as [Hl Hc].
    destruct (leaf_rec_spec a (S nb) _ [] (passed_nil _) Hl Hc ltac:(simpl; lia)) as (n & H1 & H2).
    exists n; split; auto. unfold lookup_answer.
    destruct (Nat.eqb_spec n 0) as [E0|E0]; auto. subst. destruct H2 as [[H2 _] _]. congruence.
Qed.

Lemma find_deepest_correct a : exists r, find_deepest nb s a = Ok r /\ lookup_answer s a r.
Proof.
  unfold find_deepest. destruct (Nat.eqb_spec (pidx s (PAGENUM a)) 0) as [E|E].
  - exists 0%nat. split; auto. unfold lookup_answer. rewrite Nat.eqb_refl. apply pix_zero_none; auto.
  - destruct (pix_covers a E) as [Hl Hc].
    destruct (deepest_rec_spec a (S nb) _ [] (passed_nil _) Hl Hc ltac:(simpl; lia)) as (n & H1 & H2 & _).
    exists n; split; auto. unfold lookup_answer.
    destruct (Nat.eqb_spec n 0) as [E0|E0]; auto. subst. destruct H2 as [[H2 _] _]. congruence.
Qed.

Lemma lookup_answer_unique a r1 r2 : lookup_answer s a r1 -> lookup_answer s a r2 -> r1 = r2.
Proof.
  unfold lookup_answer. destruct (Nat.eqb_spec r1 0), (Nat.eqb_spec r2 0); subst; auto.
  - intros H [H1 [H2 _]]. exfalso; eapply H; eauto.
  - intros [H1 [H2 _]] H. exfalso; eapply H; eauto.
  - intros (L1 & C1 & A1) (L2 & C2 & A2). eapply anc_antisym; eauto.
Qed.

(* climbing to the root *)
Lemma climb_spec : forall fuel cur V,
  NoDup V -> (forall v, In v V -> live s v /\ (rk cur < rk v)%nat) -> live s cur ->
  (nb < length V + fuel)%nat ->
  exists r, climb fuel s cur = Ok r /\ anc s r cur /\ live s r /\ b_parent (bigs s r) = 0%nat.
Proof.
  induction fuel as [|fuel IH]; intros cur V HV HV2 Hl Hf.
  - assert (H : (length (cur :: V) < Nat.max 1 nb)%nat).
    { eapply bounded_length; eauto.
      - constructor; auto. intro H. apply HV2 in H. lia.
      - intros x [<-|H]; [auto|]. apply HV2 in H. tauto. }
    cbn [length] in H. lia.
  - cbn [climb]. destruct (Nat.eqb_spec (b_parent (bigs s cur)) 0) as [E|E].
    + exists cur; split; [auto|]. split; [apply anc_refl|auto].
    + destruct (I_par _ _ _ _ HI _ Hl) as [H0|H0]; [congruence|].
      pose proof (I_rk _ _ _ _ HI _ Hl E) as Hrk.
      destruct (IH (b_parent (bigs s cur)) (cur :: V)) as (r & H1 & H2 & H3); auto.
      * constructor; auto. intro H. apply HV2 in H. lia.
      * intros v [<-|H]; [auto|]. apply HV2 in H. split; [tauto|lia].
      * simpl; lia.
      * exists r; split; [auto|]. split; [apply anc_up; auto|auto].
Qed.

Lemma climb_ok cur : live s cur ->
  exists r, climb (S nb) s cur = Ok r /\ anc s r cur /\ live s r /\ b_parent (bigs s r) = 0%nat.
Proof. intro H. apply climb_spec with (V := []); [constructor|intros v []|exact H|cbn [length]; lia]. Qed.

(* the by-allocator search *)
Lemma find_big_rec_spec x a bysub : forall fuel cur V, passed V cur -> live s cur -> covers s cur x ->
  (forall m, live s m -> covers s m x -> has_alloc s bysub m a -> anc s cur m) ->
  (nb < length V + fuel)%nat ->
  exists n, find_big_rec nb fuel s cur x a bysub = Ok n /\
   ((n = 0%nat /\ forall m, live s m -> covers s m x -> ~ has_alloc s bysub m a) \/ outermost s bysub x a n).
Proof.
  induction fuel as [|fuel IH]; intros cur V HV Hl Hc Hout Hf.
  - pose proof (passed_bound _ _ HV Hl). lia.
  - cbn [find_big_rec].
    destruct (Nat.eqb_spec (if bysub then b_sub (bigs s cur) else b_alloc (bigs s cur)) a) as [E|E].
    + exists cur. split; auto. right. unfold outermost; auto.
    + destruct (fcc_kids cur x Hl) as (c & -> & Hr). cbn [bind].
      destruct Hr as [[-> Hr]|[Hr1 Hr2]].
      * rewrite Nat.eqb_refl. exists 0%nat. split; auto. left. split; auto. intros m Hm Hcm Ha.
        pose proof (Hout m Hm Hcm Ha) as Hanc.
        destruct (Nat.eq_dec cur m) as [->|Hne]; [apply E, Ha|].
        destruct (anc_child _ _ _ _ HI _ _ Hanc Hm Hne) as (c & Hlc & Hpc & Hac).
        apply (Hr c); [apply (I_kid _ _ _ _ HI); auto|eapply covers_anc; eauto].
      * destruct (Nat.eqb_spec c 0) as [E0|E0]; [exfalso; eapply kid_nz; eauto|].
        pose proof (kid_live _ _ _ _ HI _ _ Hr1) as Hcl. pose proof (kid_rk _ _ Hl Hr1).
        apply IH with (V := cur :: V); auto using passed_cons; [|simpl; lia].
        intros m Hm Hcm Ha. pose proof (Hout m Hm Hcm Ha) as Hanc.
        destruct (Nat.eq_dec cur m) as [->|Hne]; [exfalso; apply E, Ha|].
        destruct (anc_child _ _ _ _ HI _ _ Hanc Hm Hne) as (c' & Hlc & Hpc & Hac).
        assert (c' = c).
        { eapply kids_cover_same with (p := cur); eauto; [apply (I_kid _ _ _ _ HI); auto|eapply covers_anc; eauto]. }
        subst; auto.
Qed.

Lemma root_anc r x m : live s r -> b_parent (bigs s r) = 0%nat -> covers s r x -> live s m -> covers s m x -> anc s r m.
Proof.
  intros Hr Hp Hc Hm Hcm. destruct (chain _ _ _ _ HI r m x) as [H|H]; auto.
  assert (r = m); [|subst; apply anc_refl].
  remember r as rr in H. destruct H; congruence.
Qed.

Lemma find_from_root_correct x a bysub :
  exists n, find_from_root nb s x a bysub = Ok n /\
   ((n = 0%nat /\ forall m, live s m -> covers s m x -> ~ has_alloc s bysub m a) \/ outermost s bysub x a n).
Proof.
  unfold find_from_root. destruct (Nat.eqb_spec (pidx s (PAGENUM x)) 0) as [E|E].
  - exists 0%nat. split; auto. left; split; auto. intros m Hm Hc. exfalso. eapply pix_zero_none; eauto.
  - destruct (pix_covers x E) as [Hl Hc].
    destruct (climb_ok _ Hl) as (r & -> & Hr & Hlr & Hr0). cbn [bind].
    assert (Hcr : covers s r x) by (eapply covers_anc; eauto).
    apply find_big_rec_spec with (V := []); auto using passed_nil; intros; eapply root_anc; eauto.
Qed.

Lemma lookup_top_level_correct x :
  exists r, lookup_top_level nb s x = Ok r /\
    ((r = 0%nat /\ forall m, live s m -> ~ covers s m x) \/
     (live s r /\ b_parent (bigs s r) = 0%nat /\ covers s r x)).
Proof.
  unfold lookup_top_level. destruct (Nat.eqb_spec (pidx s (PAGENUM x)) 0) as [E|E].
  - exists 0%nat. split; auto. left; split; auto. apply pix_zero_none; auto.
  - destruct (pix_covers x E) as [Hl Hc].
    destruct (climb_ok _ Hl) as (r & -> & Hr & Hlr & Hr0). exists r; split; auto. right.
    repeat split; auto; try apply Hlr; eapply covers_anc; eauto.
Qed.

(* the node's own consistency check always passes *)
Lemma sanity_ok n : live s n -> sanity s n = true.
Proof.
  intro Hn. unfold sanity. destruct (in_use (bigs s n)) eqn:E; [|reflexivity]. cbn [implb].
  pose proof (I_geo _ _ _ _ HI _ Hn) as Hg.
  assert (Hspn : forall q, pidx s q = n -> spans s n q).
  { intros q Hq. destruct (I_pix _ _ _ _ HI q) as (_ & Hs & _). rewrite Hq in Hs.
    destruct Hs as [H|H]; auto. destruct (live_nz _ _ Hn); auto. }
  rewrite !andb_true_iff. repeat split.
  - lia.
  - apply negb_true_iff, Nat.eqb_neq. intro H. apply Hspn in H. unfold spans, PAGENUM, PAGE in H. lia.
  - apply negb_true_iff, Nat.eqb_neq. intro H. apply Hspn in H. unfold spans, PAGENUM, PAGE in H. lia.
  - destruct (Nat.eqb_spec (b_parent (bigs s n)) 0) as [E0|E0]; [reflexivity|].
    pose proof (I_in _ _ _ _ HI _ Hn E0). cbn [orb]. lia.
Qed.

End Walks.
