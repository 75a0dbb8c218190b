(* Growing an allocation and all its enclosing ones downwards; stack growth. *)
From Verif Require Import Base Big_model Big_set Big_spec Big_inv Big_lookup Big_links Big_field Big_create Big_resize Big_preext.

Lemma anc_rk_le nb s K rk m x : Inv nb s K rk -> anc s m x -> live s x -> (rk m <= rk x)%nat.
Proof. intros HI Ha Hx. destruct (anc_rk _ _ _ _ HI _ _ Ha Hx) as [->|]; lia. Qed.
Lemma anc_dec nb s K rk m x : Inv nb s K rk -> live s x -> anc s m x \/ ~ anc s m x.
Proof.
  intro HI. assert (G : forall k x, (rk x < k)%nat -> live s x -> anc s m x \/ ~ anc s m x).
  { induction k as [|k IHk]; intros y Hx Lx; [lia|].
    destruct (Nat.eq_dec m y) as [->|Hne]; [left; constructor|].
    destruct (Nat.eq_dec (b_parent (bigs s y)) 0) as [Ez|Ez].
    - right. intro Ha. inversion Ha; subst; congruence.
    - pose proof (I_rk _ _ _ _ HI _ Lx Ez). destruct (I_par _ _ _ _ HI _ Lx) as [Hz|Lp]; [congruence|].
      destruct (IHk (b_parent (bigs s y)) ltac:(lia) Lp) as [Ha|Ha]; [left; apply anc_up; auto|right]. intro Hb. inversion Hb; congruence. }
  intro Lx. apply (G (S (rk x))); auto.
Qed.

Section Rec.
Variables (nb : nat) (biggest : Z) (dbg : bool) (al : nat -> Z).
Hypothesis al_pos : forall a, 0 <= al a.

Lemma wants_parent s n b m r : b_parent (bigs s n) <> 0%nat ->
  wants s al (b_parent (bigs s n)) (let a := al (b_alloc (bigs s (b_parent (bigs s n)))) in if a =? 0 then b else rdown b a) m r ->
  wants s al n b m r.
Proof.
  intro Hp. induction 1 as [|m r H IH Hz]; [apply (wants_up s al n b n b); [constructor|auto]|apply wants_up; auto].
Qed.
Lemma wants_inv s n b m r : wants s al n b m r -> (m = n /\ r = b) \/
  (b_parent (bigs s n) <> 0%nat /\
  wants s al (b_parent (bigs s n)) (let a := al (b_alloc (bigs s (b_parent (bigs s n)))) in if a =? 0 then b else rdown b a) m r).
Proof.
  induction 1 as [|m r H IH Hz]; [left; auto|]. right. destruct IH as [[-> ->]|[IH1 IH2]].
  - split; auto. constructor.
  - split; auto. apply wants_up; auto.
Qed.
Lemma wants_anc s n b m r : wants s al n b m r -> anc s m n.
Proof.
  induction 1 as [|m r H IH Hz]; [constructor|]. clear H.
  induction IH as [|x Hx Ha IHa]; [apply anc_up; auto; constructor|apply anc_up; auto].
Qed.
Lemma anc_wants s n b m : anc s m n -> exists r, wants s al n b m r.
Proof.
  intro H. revert b. induction H as [|x Hx Ha IH]; intro b; [exists b; constructor|].
  destruct (IH (let a := al (b_alloc (bigs s (b_parent (bigs s x)))) in if a =? 0 then b else rdown b a)) as (r & Hr).
  exists r. apply wants_parent; auto.
Qed.
Lemma request_le (a b : Z) : 0 <= a -> (if a =? 0 then b else rdown b a) <= b.
Proof. intro H. destruct (Z.eqb_spec a 0); [lia|]. unfold rdown. nia. Qed.

Lemma pre_extend_rec_S f s n b : pre_extend_rec nb biggest dbg (S f) al s n b =
  (do s1 <- (if Nat.eqb (b_parent (bigs s n)) 0 then Ok s
             else pre_extend_rec nb biggest dbg f al s (b_parent (bigs s n))
                    (let a := al (b_alloc (bigs s (b_parent (bigs s n)))) in if a =? 0 then b else rdown b a)) ;
   pre_extend nb biggest dbg s1 n b).
Proof. reflexivity. Qed.

Lemma pre_extend_rec_ok : forall fuel s K rk n b V,
  Inv nb s K rk -> live s n ->
  NoDup V -> (forall v, In v V -> live s v /\ (rk n < rk v)%nat) -> (nb < length V + fuel)%nat ->
  (forall m r, wants s al n b m r -> room s biggest m r) ->
  exists s', pre_extend_rec nb biggest dbg fuel al s n b = Ok s' /\ Inv nb s' K rk /\
    (forall m r, wants s al n b m r -> view s' m = Some (lowered (attrs_of (bigs s m)) r)) /\
    (forall m, ~ anc s m n -> view s' m = view s m) /\ start s' = start s /\ log s' = log s.
Proof.
  induction fuel as [|f IH]; intros s K rk n b V HI Hn Hnd HV Hf Hroom.
  - exfalso. assert (Hb : (length (n :: V) < Nat.max 1 nb)%nat).
    { eapply bounded_length; eauto.
      - constructor; auto. intro Hin. specialize (HV _ Hin). lia.
      - intros x [<-|Hx]; auto. apply HV; auto. }
    cbn [length] in Hb. lia.
  - rewrite pre_extend_rec_S. set (p := b_parent (bigs s n)).
    set (r1 := let a := al (b_alloc (bigs s p)) in if a =? 0 then b else rdown b a).
    assert (Hself : room s biggest n b) by (apply Hroom; constructor).
    assert (Hstep : exists s1, (if Nat.eqb p 0 then Ok s else pre_extend_rec nb biggest dbg f al s p r1) = Ok s1 /\ Inv nb s1 K rk /\
       (p <> 0%nat -> forall m r, wants s al p r1 m r -> view s1 m = Some (lowered (attrs_of (bigs s m)) r)) /\
       (forall m, (p = 0%nat \/ ~ anc s m p) -> view s1 m = view s m) /\ start s1 = start s /\ log s1 = log s).
    { destruct (Nat.eqb_spec p 0) as [E|E].
      - exists s. split; [reflexivity|]. split; [exact HI|]. split; [intro; congruence|]. auto.
      - destruct (I_par _ _ _ _ HI _ Hn) as [H0|Hp]; [unfold p in E; congruence|]. fold p in Hp.
        destruct (IH s K rk p r1 (n :: V) HI Hp) as (s1 & A & B & C & D & F & G).
        + constructor; auto. intro Hin. specialize (HV _ Hin). lia.
        + pose proof (I_rk _ _ _ _ HI _ Hn E) as Hr. fold p in Hr. intros v [<-|Hv]; [split; auto|].
          destruct (HV v Hv). split; auto. lia.
        + cbn [length]. lia.
        + intros m r Hm. apply Hroom. apply wants_parent; auto.
        + exists s1. split; [exact A|]. split; [exact B|]. split; [auto|]. split; [|auto]. intros m [Hm|Hm]; [congruence|]. auto. }
    destruct Hstep as (s1 & H1 & HI1 & Hanc1 & Hoth1 & Hst1 & Hlg1). rewrite H1. cbn [bind].
    assert (Hnp : p = 0%nat \/ ~ anc s n p).
    { destruct (Nat.eq_dec p 0) as [E|E]; [left; auto|right]. intro Ha.
      destruct (I_par _ _ _ _ HI _ Hn) as [H0|Hp]; [unfold p in E; congruence|]. fold p in Hp.
      pose proof (I_rk _ _ _ _ HI _ Hn E) as Hr. fold p in Hr.
      pose proof (anc_rk_le _ _ _ _ _ _ HI Ha Hp); lia. }
    assert (Vn : view s1 n = view s n) by (apply Hoth1; auto).
    assert (Ln1 : live s1 n) by (apply view_live; rewrite Vn; apply view_live; auto).
    assert (An : attrs_of (bigs s1 n) = attrs_of (bigs s n)).
    { rewrite (live_view _ _ Hn), (live_view _ _ Ln1) in Vn. congruence. }
    assert (Hsame : forall m, (p = 0%nat \/ ~ anc s m p) -> live s m -> attrs_of (bigs s1 m) = attrs_of (bigs s m) /\ live s1 m).
    { intros m Hm Lm. pose proof (Hoth1 m Hm) as Vm. assert (L1 : live s1 m) by (apply view_live; rewrite Vm; apply view_live; auto).
      split; auto. rewrite (live_view _ _ Lm), (live_view _ _ L1) in Vm. congruence. }
    assert (Hlive1 : forall m, live s1 m <-> live s m).
    { intro m. rewrite !view_live. destruct (Nat.eq_dec p 0) as [E|E]; [rewrite Hoth1; tauto|].
      destruct (live_dec s m) as [Lm|Lm].
      - destruct (live_dec s1 m) as [L1|L1]; [apply view_live in Lm; apply view_live in L1; tauto|].
        exfalso. apply L1. apply view_live.
        destruct (I_par _ _ _ _ HI _ Hn) as [H0|Hp]; [unfold p in E; congruence|]. fold p in Hp.
        pose proof (anc_dec _ _ _ _ m p HI Hp) as Hd.
        destruct Hd as [Ha|Ha].
        + destruct (anc_wants s p r1 m Ha) as (r & Hr). rewrite (Hanc1 E m r Hr). discriminate.
        + rewrite Hoth1 by auto. apply view_live; auto.
      - assert (view s m = None) by (destruct (view s m) eqn:Ev; auto; exfalso; apply Lm; apply view_live; congruence).
        rewrite Hoth1; [tauto|]. right. intro Ha. apply Lm. eapply anc_live; eauto.
        destruct (I_par _ _ _ _ HI _ Hn) as [H0|Hp]; [unfold p in E; congruence|auto]. }
    (* the parent now reaches down far enough *)
    destruct Hself as (Hb & Hsz & Hsib & Hal). pose proof (I_geo _ _ _ _ HI _ Hn) as Hgn.
    set (lo := Z.min b (b_begin (bigs s n))) in *.
    assert (HBn : b_begin (bigs s1 n) = b_begin (bigs s n)) by (apply attrs_begin; auto).
    assert (HEn : b_end (bigs s1 n) = b_end (bigs s n)) by (apply attrs_end; auto).
    assert (HPn : b_parent (bigs s1 n) = p) by (apply attrs_parent; auto).
    assert (HG : good_range s1 n lo (b_end (bigs s1 n))).
    { constructor.
      - rewrite HEn. lia.
      - rewrite HEn, HBn. lia.
      - rewrite HPn. intro E. destruct (I_par _ _ _ _ HI _ Hn) as [H0|Hp]; [unfold p in E; congruence|]. fold p in Hp.
        pose proof (Hanc1 E p r1 (wants_self _ _ _ _)) as Vp.
        assert (Lp1 : live s1 p) by (apply Hlive1; auto). rewrite (live_view _ _ Lp1) in Vp. injection Vp. intros _ _ _ _ _ Ee Eb.
        cbn [attrs_of a_begin a_end] in Ee, Eb. pose proof (I_in _ _ _ _ HI _ Hn E) as Hi. fold p in Hi.
        rewrite Ee, Eb, HEn. pose proof (request_le (al (b_alloc (bigs s p))) b (al_pos _)) as Hq. unfold r1. cbn zeta. lia.
      - intros c Lc Pc. apply Hlive1 in Lc. rewrite HEn.
        assert (Hc : attrs_of (bigs s1 c) = attrs_of (bigs s c)).
        { apply Hsame; auto. destruct (Nat.eq_dec p 0) as [E|E]; [left; auto|right]. intro Ha.
          destruct (I_par _ _ _ _ HI _ Hn) as [H0|Hp]; [unfold p in E; congruence|]. fold p in Hp.
          destruct (anc_wants s p r1 c Ha) as (r & Hr). pose proof (Hanc1 E c r Hr) as Vc.
          assert (Lc1 : live s1 c) by (apply Hlive1; auto). rewrite (live_view _ _ Lc1) in Vc. injection Vc. intros _ _ _ _ Ep _ _. cbn in Ep.
          rewrite Pc in Ep. pose proof (I_rk _ _ _ _ HI _ Lc ltac:(rewrite <- Ep; apply Hn)) as R1. rewrite <- Ep in R1.
          pose proof (I_rk _ _ _ _ HI _ Hn E) as R2. fold p in R2. pose proof (anc_rk_le _ _ _ _ _ _ HI Ha Hp); lia. }
        rewrite (attrs_begin _ _ Hc), (attrs_end _ _ Hc).
        pose proof (attrs_parent _ _ Hc) as Ep. rewrite Pc in Ep. pose proof (I_in _ _ _ _ HI _ Lc ltac:(rewrite <- Ep; apply Hn)) as Hi. rewrite <- Ep in Hi. lia.
      - intros m Lm Hm Pm. rewrite HPn in Pm. apply Hlive1 in Lm. rewrite HEn.
        assert (Hc : attrs_of (bigs s1 m) = attrs_of (bigs s m)).
        { apply Hsame; auto. destruct (Nat.eq_dec p 0) as [E|E]; [left; auto|right]. intro Ha.
          destruct (I_par _ _ _ _ HI _ Hn) as [H0|Hp]; [unfold p in E; congruence|]. fold p in Hp.
          destruct (anc_wants s p r1 m Ha) as (r & Hr). pose proof (Hanc1 E m r Hr) as Vc.
          assert (Lc1 : live s1 m) by (apply Hlive1; auto). rewrite (live_view _ _ Lc1) in Vc. injection Vc. intros _ _ _ _ Ep _ _. cbn in Ep.
          rewrite Pm in Ep. pose proof (I_rk _ _ _ _ HI _ Lm ltac:(rewrite <- Ep; auto)) as R1. rewrite <- Ep in R1.
          pose proof (anc_rk_le _ _ _ _ _ _ HI Ha Hp); lia. }
        rewrite (attrs_begin _ _ Hc), (attrs_end _ _ Hc). apply Hsib; auto. rewrite <- (attrs_parent _ _ Hc). rewrite Pm. reflexivity.
      - rewrite HPn, HEn. intro E. split; [apply Hal; auto|]. eapply I_align; eauto. apply (I_kid _ _ _ _ HI); auto. }
    assert (Hfin : exists s', pre_extend nb biggest dbg s1 n b = Ok s' /\ Inv nb s' K rk /\ resized s1 s' n lo (b_end (bigs s1 n))).
    { destruct (Z.le_gt_cases b (b_begin (bigs s n))) as [Hle|Hgt].
      - assert (E : lo = b) by (unfold lo; lia). rewrite E in *. apply pre_extend_ok; auto; [rewrite HBn; lia|rewrite HEn; lia].
      - unfold pre_extend. cbn zeta. rewrite asrt_true by (eapply sanity_ok; eauto). cbn [bind].
        rewrite HBn. destruct (Z.ltb_spec b (b_begin (bigs s n))); [lia|]. cbn [bind].
        rewrite asrt_true by (eapply sanity_ok; eauto). cbn [bind]. exists s1. split; [reflexivity|]. split; [auto|]. split; [|auto].
        intro m. destruct (Nat.eqb_spec m n) as [->|Em]; auto. rewrite live_view by auto.
        assert (E : lo = b_begin (bigs s1 n)) by (unfold lo; lia). rewrite E. reflexivity. }
    destruct Hfin as (s' & A & B & (Cv & Cs & Cl)). exists s'. split; [exact A|]. split; [exact B|].
    split; [|split; [|split; congruence]].
    + intros m r Hw. destruct (wants_inv _ _ _ _ _ Hw) as [[-> ->]|[E Hw2]].
      * rewrite Cv, Nat.eqb_refl. rewrite HEn, HPn. injection An. intros -> -> -> -> _ _ _. unfold lowered. cbn. reflexivity.
      * rewrite Cv. destruct (Nat.eqb_spec m n) as [->|Em].
        -- exfalso. destruct Hnp as [H|H]; [auto|]. apply H. eapply wants_anc; eauto.
        -- apply Hanc1; auto.
    + intros m Hm. rewrite Cv. destruct (Nat.eqb_spec m n) as [->|Em]; [exfalso; apply Hm; constructor|].
      apply Hoth1. destruct (Nat.eq_dec p 0) as [E|E]; [left; auto|right]. intro Ha. apply Hm. apply anc_up; auto.
Qed.
End Rec.
