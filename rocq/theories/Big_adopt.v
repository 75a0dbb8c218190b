(* Adoption of an address just below a stack (stack growth). *)
From Verif Require Import Base Big_model Big_set Big_spec Big_inv Big_lookup Big_links Big_field Big_create Big_resize Big_preext Big_stack.

Section Adopt.
Variables (nb : nat) (biggest : Z) (dbg : bool) (al : nat -> Z).
(* each allocator's minimum alignment is absent or divides the page size *)
Hypothesis al_ok : forall a, 0 <= al a /\ (al a = 0 \/ (al a | PAGE)).

Lemma pages_unused_spec s lo hi : pages_unused s lo hi = true <->
  PAGENUM lo <= PAGENUM hi /\ forall q, PAGENUM lo <= q < PAGENUM hi -> pidx s q = 0%nat.
Proof.
  unfold pages_unused. rewrite andb_true_iff, Z.leb_le, forallb_forall. split.
  - intros [H1 H2]. split; auto. intros q Hq. apply Nat.eqb_eq. apply H2. unfold zrange. apply in_map_iff.
    exists (Z.to_nat (q - PAGENUM lo)). split; [lia|]. apply in_seq. lia.
  - intros [H1 H2]. split; auto. intros q Hq. apply Nat.eqb_eq, H2. unfold zrange in Hq. apply in_map_iff in Hq.
    destruct Hq as (j & <- & Hj). apply in_seq in Hj. lia.
Qed.

Lemma pix0_iff s K rk q : Inv nb s K rk ->
  (pidx s q = 0%nat <-> forall m a, live s m -> PAGE * q <= a < PAGE * q + PAGE -> ~ covers s m a).
Proof.
  intro HI. split.
  - intros H m a Hm Ha. apply (pix_zero_none _ _ _ _ HI); auto. replace (PAGENUM a) with q; auto. unfold PAGENUM, PAGE in *. lia.
  - intro H. destruct (Nat.eq_dec (pidx s q) 0) as [E|E]; auto. exfalso.
    destruct (pix_covers _ _ _ _ HI (PAGE * q)) as [A B].
    { replace (PAGENUM (PAGE * q)) with q; auto. unfold PAGENUM, PAGE. lia. }
    eapply H; [exact A| |exact B]. unfold PAGE; lia.
Qed.

Lemma claims_spec cur max s K rk b ptr : Inv nb s K rk -> live s b -> b_begin (bigs s b) mod PAGE = 0 ->
  pidx s (PAGENUM ptr) = 0%nat ->
  (stack_claims cur max s b ptr = true <-> near cur max s b ptr /\ gap_free s b ptr).
Proof.
  intros HI Hb Hal Hp. unfold stack_claims. rewrite andb_true_iff, pages_unused_spec.
  pose proof (I_geo _ _ _ _ HI _ Hb) as Hg.
  assert (Hnc : ~ covers s b ptr) by (apply (pix_zero_none _ _ _ _ HI); auto).
  unfold covers in Hnc. unfold near.
  fold (sane_stack_size cur max). 
  assert (Hdelta : (if (cur =? -1) && (max =? -1) then 256 * 1024 else if cur =? -1 then max else cur) = sane_stack_delta cur max).
  { unfold sane_stack_delta, sane_stack_size. destruct ((cur =? -1) && (max =? -1)); reflexivity. }
  rewrite Hdelta. set (dl := sane_stack_delta cur max). set (sz := sane_stack_size cur max). clearbody dl sz.
  set (lo := b_begin (bigs s b)) in *. set (hi := b_end (bigs s b)) in *.
  assert (Hq : gap_free s b ptr -> ptr < lo -> forall q, PAGENUM (RUP ptr) <= q < PAGENUM lo -> pidx s q = 0%nat).
  { intros HG Hlt q Hq. apply (pix0_iff _ _ _ q HI). intros m a Hm Ha. apply HG; auto. fold lo.
    unfold PAGENUM, RUP, RDOWN, PAGE in *. lia. }
  split.
  - intros [H1 [H2 H3]]. assert (Hlt : ptr < lo) by lia. split; [split; [auto|lia]|].
    intros m a Hm Ha. fold lo in Ha. apply (pix_zero_none _ _ _ _ HI); auto.
    destruct (Z.eq_dec (PAGENUM a) (PAGENUM ptr)) as [E|E]; [rewrite E; auto|]. apply H3.
    clear - Ha E Hal. unfold PAGENUM, RUP, RDOWN, PAGE in *. lia.
  - intros [[Hlt H1] HG]. split; [lia|]. split; [|apply Hq; auto].
    clear - Hlt Hal. unfold PAGENUM, RUP, PAGE in *. lia.
Qed.

Lemma wants_page s n b m r : b mod PAGE = 0 -> wants s al n b m r -> r = b.
Proof.
  intros Hb. induction 1 as [|m r H IH Hz]; auto. subst r. cbn zeta.
  destruct (al_ok (b_alloc (bigs s (b_parent (bigs s m))))) as [H0 H1]. set (a := al _) in *. clearbody a.
  destruct (Z.eqb_spec a 0) as [|E]; auto. destruct H1 as [H1|[k Hk]]; [congruence|].
  unfold rdown. assert (Hd : (a | b)) by (apply Z.mod_divide in Hb; [|unfold PAGE; lia]; destruct Hb as [j Hj]; exists (j * k); rewrite Hj, Hk; ring).
  apply Z.mod_divide in Hd; auto. pose proof (Z.div_mod b a E). nia.
Qed.

(* One stack growth. *)
Lemma grow_ok s K rk b ptr cur max : Inv nb s K rk -> live s b -> b_begin (bigs s b) mod PAGE = 0 ->
  PAGE <= ptr -> pidx s (PAGENUM ptr) = 0%nat -> near cur max s b ptr -> gap_free s b ptr ->
  (forall m, anc s m b -> b_end (bigs s m) - RDOWN ptr <= biggest) ->
  exists s', pre_extend_rec nb biggest dbg (S nb) al s b (RDOWN ptr) = Ok s' /\ Inv nb s' K rk /\
    (forall m, anc s m b -> view s' m = Some (lowered (attrs_of (bigs s m)) (RDOWN ptr)) /\ RDOWN ptr < b_begin (bigs s m)) /\
    (forall m, ~ anc s m b -> view s' m = view s m) /\ start s' = start s /\ log s' = log s /\
    innermost s' ptr b.
Proof.
  intros HI Hb Hal Hptr Hp [Hlt _] HG Hsz.
  assert (Hrd : RDOWN ptr mod PAGE = 0) by (unfold RDOWN; apply Z.mod_mul; unfold PAGE; lia).
  assert (Hrd2 : 0 < RDOWN ptr <= ptr) by (clear - Hptr; unfold RDOWN, PAGE in *; lia).
  assert (Hrd3 : ptr < RDOWN ptr + PAGE) by (clear; unfold RDOWN, PAGE in *; lia).
  assert (Hanc : forall m, anc s m b -> live s m /\ b_begin (bigs s m) <= b_begin (bigs s b) /\ b_end (bigs s b) <= b_end (bigs s m)).
  { intros m Hm. split; [apply (anc_live _ _ _ _ HI m b); auto|]. apply (anc_range _ _ _ _ HI m b); auto. }
  pose proof (I_geo _ _ _ _ HI _ Hb) as Hgb.
  assert (Hlow : forall m, anc s m b -> RDOWN ptr < b_begin (bigs s m)).
  { intros m Hm. destruct (Hanc m Hm) as (Lm & H1 & H2). pose proof (HG m (RDOWN ptr) Lm). unfold covers in *. lia. }
  destruct (pre_extend_rec_ok nb biggest dbg al (fun a => proj1 (al_ok a)) (S nb) s K rk b (RDOWN ptr) [] HI Hb)
    as (s' & E & HI' & HV1 & HV2 & HV3 & HV4).
  - constructor.
  - intros v [].
  - cbn. lia.
  - intros m r Hw. pose proof (wants_anc _ _ _ _ _ _ Hw) as Ha. rewrite (wants_page _ _ _ _ _ Hrd Hw).
    destruct (Hanc m Ha) as (Lm & H1 & H2). pose proof (Hlow m Ha). unfold room. cbn zeta.
    rewrite Z.min_l by lia. split; [lia|]. split; [auto|]. split; [|auto].
    intros x Lx Hne Hpar. destruct (I_disj _ _ _ _ HI (b_parent (bigs s m)) x m) as [D|D].
    + rewrite <- Hpar. apply (live_kid _ _ _ _ HI); auto.
    + apply (live_kid _ _ _ _ HI); auto.
    + auto.
    + left. destruct (Z.le_gt_cases (b_end (bigs s x)) (RDOWN ptr)) as [|Hgt]; auto. exfalso.
      pose proof (I_geo _ _ _ _ HI _ Lx). apply (HG x (Z.max (RDOWN ptr) (b_begin (bigs s x))) Lx); [lia|]. unfold covers. lia.
    + auto.
  - exists s'. split; [exact E|]. split; [exact HI'|].
    assert (HVa : forall m, anc s m b -> view s' m = Some (lowered (attrs_of (bigs s m)) (RDOWN ptr))).
    { intros m Hm. destruct (anc_wants al s b (RDOWN ptr) m Hm) as (r & Hr). rewrite (HV1 m r Hr). rewrite (wants_page _ _ _ _ _ Hrd Hr). auto. }
    split; [intros m Hm; split; auto|]. split; [auto|]. split; [auto|]. split; [auto|].
    assert (Hview : forall m, live s' m -> live s m /\
      (covers s' m ptr -> anc s m b) /\ b_parent (bigs s' m) = b_parent (bigs s m)).
    { intros m Hm. destruct (live_dec s m) as [Lm|Lm].
      - destruct (anc_dec _ _ _ _ m b HI Hb) as [Ha|Ha].
        + specialize (HVa m Ha). rewrite live_view in HVa by auto. injection HVa; intros. split; auto.
        + pose proof (HV2 m Ha) as Hv. rewrite !live_view in Hv by auto. injection Hv; intros. split; auto. split; auto.
          intro Hc. exfalso. apply (pix_zero_none _ _ _ _ HI ptr Hp m Lm). unfold covers in *. lia.
      - exfalso. destruct (anc_dec _ _ _ _ m b HI Hb) as [Ha|Ha]; [apply Lm; apply (anc_live _ _ _ _ HI m b); auto|].
        apply Lm. apply view_live. rewrite <- HV2 by auto. apply view_live; auto. }
    assert (Lb' : live s' b). { apply view_live. rewrite HVa by constructor. discriminate. }
    assert (Hpar : forall x, live s x -> b_parent (bigs s' x) = b_parent (bigs s x)).
    { intros x Lx. apply Hview. apply view_live. destruct (anc_dec _ _ _ _ x b HI Hb) as [Ha|Ha]; [rewrite HVa by auto; discriminate|].
      rewrite HV2 by auto. apply view_live; auto. }
    split; [auto|]. split.
    + pose proof (HVa b (anc_refl _ _)) as Hv. rewrite live_view in Hv by auto. injection Hv; intros. unfold covers. lia.
    + intros m Lm Hc. destruct (Hview m Lm) as (L & Hx & _). specialize (Hx Hc).
      clear - Hx HI Hb Hpar. revert Hb. induction Hx as [|x Hx Ha IH]; intro Lx; [constructor|].
      apply anc_up; rewrite Hpar; auto. apply IH. destruct (I_par _ _ _ _ HI _ Lx); [congruence|auto].
Qed.

(* The whole notification: the first stack that is near enough with nothing between is
   grown; if none is, nothing changes. *)
Lemma stack_notify_ok cur max s K rk ptr : Inv nb s K rk -> PAGE <= ptr -> pidx s (PAGENUM ptr) = 0%nat ->
  forall stacks, (forall b, In b stacks -> live s b /\ b_begin (bigs s b) mod PAGE = 0 /\
     forall m, anc s m b -> b_end (bigs s m) - RDOWN ptr <= biggest) ->
  (exists l1 b l2 s', stacks = l1 ++ b :: l2 /\
     (forall x, In x l1 -> ~ (near cur max s x ptr /\ gap_free s x ptr)) /\ near cur max s b ptr /\ gap_free s b ptr /\
     stack_notify nb biggest dbg al cur max s stacks ptr = Ok (s', true) /\ Inv nb s' K rk /\
     (forall m, anc s m b -> view s' m = Some (lowered (attrs_of (bigs s m)) (RDOWN ptr)) /\ RDOWN ptr < b_begin (bigs s m)) /\
     (forall m, ~ anc s m b -> view s' m = view s m) /\ start s' = start s /\ log s' = log s /\
     innermost s' ptr b) \/
  ((forall x, In x stacks -> ~ (near cur max s x ptr /\ gap_free s x ptr)) /\
     stack_notify nb biggest dbg al cur max s stacks ptr = Ok (s, false)).
Proof.
  intros HI Hptr Hp. induction stacks as [|b r IH]; intro HS.
  - right. split; [intros x []|reflexivity].
  - destruct (HS b (or_introl eq_refl)) as (Lb & Ab & Sb).
    pose proof (claims_spec cur max s K rk b ptr HI Lb Ab Hp) as Hc. cbn [stack_notify].
    destruct (stack_claims cur max s b ptr) eqn:E.
    + destruct (proj1 Hc eq_refl) as [Hn Hg]. left.
      destruct (grow_ok s K rk b ptr cur max HI Lb Ab Hptr Hp Hn Hg Sb) as (s' & E' & R).
      exists [], b, r, s'. split; [auto|]. split; [intros x []|]. split; [auto|]. split; [auto|].
      rewrite E'. cbn [bind]. split; [auto|]. exact R.
    + assert (Hnot : ~ (near cur max s b ptr /\ gap_free s b ptr)) by (intro H; apply Hc in H; discriminate).
      destruct IH as [(l1 & b' & l2 & s' & E1 & E2 & R)|[E1 E2]].
      * intros x Hx. apply HS. right; auto.
      * left. exists (b :: l1), b', l2, s'. split; [rewrite E1; auto|]. split; [|exact R].
        intros x [<-|Hx]; auto.
      * right. split; [|auto]. intros x [<-|Hx]; auto.
Qed.
End Adopt.
