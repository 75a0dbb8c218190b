(* Growing and shrinking a big allocation in place. *)
From Verif Require Import Base Big_model Big_set Big_spec Big_inv Big_lookup Big_links Big_field Big_create.

Section Resize.
Variables (nb : nat) (biggest : Z) (dbg : bool).

Lemma geo_resize s s' K rk n lo hi :
  Inv nb s K rk -> live s n -> good_range s n lo hi ->
  (forall m, m <> n -> attrs_of (bigs s' m) = attrs_of (bigs s m)) ->
  b_begin (bigs s' n) = lo -> b_end (bigs s' n) = hi -> b_parent (bigs s' n) = b_parent (bigs s n) ->
  (forall q, pidx s' q =
     if spansb lo hi q && negb (spansb (b_begin (bigs s n)) (b_end (bigs s n)) q) then n
     else if spansb (b_begin (bigs s n)) (b_end (bigs s n)) q && negb (spansb lo hi q) then b_parent (bigs s n)
     else pidx s q) ->
  Geo s' K.
Proof.
  intros HI Hn [Gg Gm Gi Gk Gs Ga] Hat Hlo Hhi Hpar Hpix.
  pose proof (I_geo _ _ _ _ HI _ Hn) as Hgn.
  assert (Hu : in_use (bigs s' n) = true) by (unfold in_use; rewrite Hlo, Hhi; lia).
  assert (Hlive : forall m, live s' m <-> live s m).
  { intro m. unfold live. destruct (Nat.eq_dec m n) as [->|E].
    - rewrite Hu. destruct Hn as [Hn0 Hn]. rewrite Hn. tauto.
    - rewrite (attrs_in_use _ _ (Hat m E)). tauto. }
  assert (HB : forall m, m <> n -> b_begin (bigs s' m) = b_begin (bigs s m)) by (intros; apply attrs_begin; auto).
  assert (HE : forall m, m <> n -> b_end (bigs s' m) = b_end (bigs s m)) by (intros; apply attrs_end; auto).
  assert (HP : forall m, b_parent (bigs s' m) = b_parent (bigs s m)).
  { intro m. destruct (Nat.eq_dec m n) as [->|E]; [auto|]. apply attrs_parent; auto. }
  set (p := b_parent (bigs s n)) in *.
  assert (Hpne : p <> n).
  { intro E. assert (Hz : p <> 0%nat) by (rewrite E; apply Hn). pose proof (I_rk _ _ _ _ HI _ Hn Hz). fold p in H. rewrite E in H. lia. }
  assert (Hnp : node s p) by (apply (I_par _ _ _ _ HI); auto).
  constructor.
  - intros m Hm. apply Hlive in Hm. destruct (Nat.eq_dec m n) as [->|E]; [rewrite Hlo, Hhi; auto|].
    rewrite HB, HE by auto. apply (I_geo _ _ _ _ HI); auto.
  - intros m Hm. apply Hlive in Hm. rewrite HP. intro Hz. destruct (Nat.eq_dec m n) as [->|E].
    + rewrite Hlo, Hhi. fold p in Hz |- *. rewrite HB, HE by auto. auto.
    + destruct (Nat.eq_dec (b_parent (bigs s m)) n) as [E2|E2].
      * rewrite E2, Hlo, Hhi, HB, HE by auto. auto.
      * rewrite !HB, !HE by auto. apply (I_in _ _ _ _ HI); auto.
  - intros q a b Ha Hb Hab. pose proof (I_disj _ _ _ _ HI q a b Ha Hb Hab) as Hd. unfold disj in *.
    apply (I_kid _ _ _ _ HI) in Ha. apply (I_kid _ _ _ _ HI) in Hb. destruct Ha as [Ha Hqa], Hb as [Hb Hqb].
    destruct (Nat.eq_dec a n) as [->|Ea]; destruct (Nat.eq_dec b n) as [->|Eb].
    + congruence.
    + rewrite Hlo, Hhi, HB, HE by auto. destruct (Gs b Hb Eb ltac:(unfold p; congruence)); lia.
    + rewrite Hlo, Hhi, HB, HE by auto. destruct (Gs a Ha Ea ltac:(unfold p; congruence)); lia.
    + rewrite !HB, !HE by auto. auto.
  - pose proof (I_before _ _ _ _ HI) as Hb.
    destruct (Nat.eq_dec p 0) as [Ep|Ep].
    + assert (Hk : In n (K 0%nat)) by (apply (I_kid _ _ _ _ HI); auto).
      destruct (in_split _ _ Hk) as (l1 & l2 & HK). rewrite HK in *.
      apply before_app in Hb. cbn [before] in Hb. destruct Hb as (Hb1 & (Hb2 & Hb3) & Hb4).
      pose proof (I_nodup _ _ _ _ HI 0%nat) as Hnd. rewrite HK in Hnd. pose proof (NoDup_remove_2 _ _ _ Hnd) as Hni. rewrite in_app_iff in Hni.
      assert (Hx1 : forall x, In x l1 -> x <> n) by (intros x Hx ->; tauto).
      assert (Hx2 : forall x, In x l2 -> x <> n) by (intros x Hx ->; tauto).
      assert (Hlv : forall x, In x (l1 ++ n :: l2) -> live s x /\ b_parent (bigs s x) = p) by (intros x Hx; rewrite <- HK in Hx; apply (I_kid _ _ _ _ HI) in Hx; rewrite Ep; auto).
      apply before_app. cbn [before]. split; [|split; [split|]].
      * apply before_ext with (s := s); auto.
      * intros y Hy. rewrite Hhi, HB by auto. destruct (Hlv y ltac:(apply in_or_app; simpl; auto)) as [L1 L2].
        specialize (Hb2 y Hy). pose proof (I_geo _ _ _ _ HI _ L1). destruct (Gs y L1 (Hx2 y Hy) L2); lia.
      * apply before_ext with (s := s); auto.
      * intros x y Hx [<-|Hy].
        -- rewrite Hlo, HE by auto. destruct (Hlv x ltac:(apply in_or_app; simpl; auto)) as [L1 L2].
           specialize (Hb4 x n Hx ltac:(simpl; auto)). pose proof (I_geo _ _ _ _ HI _ L1). destruct (Gs x L1 (Hx1 x Hx) L2); lia.
        -- rewrite HB, HE by auto. apply Hb4; simpl; auto.
    + apply before_ext with (s := s); auto. intros x Hx.
      assert (x <> n) by (intros ->; apply (kid_par _ _ _ _ HI) in Hx; unfold p in Ep; congruence). split; auto.
  - intros m Hm. destruct (Nat.eq_dec m n) as [->|E].
    + rewrite Hlo, Hhi. apply Ga. apply (kid_par _ _ _ _ HI) in Hm. auto.
    + rewrite HB, HE by auto. apply (I_align _ _ _ _ HI); auto.
  - intro q. rewrite Hpix.
    assert (Hkid_sp : forall c, In c (K n) -> spans s' c q -> spansb (b_begin (bigs s n)) (b_end (bigs s n)) q = true /\ spansb lo hi q = true).
    { intros c Hc Hs. pose proof (kid_live _ _ _ _ HI _ _ Hc) as Lc. pose proof (kid_par _ _ _ _ HI _ _ Hc) as Pc.
      assert (Ec : c <> n).
      { intros ->. assert (Hz : b_parent (bigs s n) <> 0%nat) by (rewrite Pc; apply Hn). pose proof (I_rk _ _ _ _ HI _ Hn Hz). rewrite Pc in H. lia. }
      unfold spans in Hs. rewrite HB, HE in Hs by auto.
      pose proof (I_in _ _ _ _ HI _ Lc ltac:(rewrite Pc; apply Hn)) as Hi. rewrite Pc in Hi.
      specialize (Gk c Lc Pc). unfold spansb. lia. }
    destruct (spansb lo hi q) eqn:En; destruct (spansb (b_begin (bigs s n)) (b_end (bigs s n)) q) eqn:Eo; cbn [andb negb].
    2:{ split; [right; apply Hlive; auto|]. split; [right; apply spansb_spec; rewrite Hlo, Hhi; auto|].
        intros c Hc Hs. destruct (Hkid_sp c Hc Hs). congruence. }
    2:{ split; [destruct Hnp; [left; auto|right; apply Hlive; auto]|].
        apply spansb_spec in Eo. split.
        - destruct Hnp as [H|H]; [left; auto|right].
          pose proof (I_in _ _ _ _ HI _ Hn ltac:(fold p; apply H)) as Hi. fold p in Hi.
          unfold spans in *. rewrite HB, HE by auto. lia.
        - intros c Hc Hs. destruct (Nat.eq_dec c n) as [->|E].
          + apply spansb_spec in Hs. rewrite Hlo, Hhi in Hs. congruence.
          + unfold spans in *. rewrite HB, HE in Hs by auto.
            pose proof (I_disj _ _ _ _ HI _ _ _ Hc (live_kid _ _ _ _ HI _ Hn) E) as Hd. unfold disj, PAGE in *. lia. }
    + destruct (I_pix _ _ _ _ HI q) as (H1 & H2 & H3).
      split; [destruct H1; [left; auto|right; apply Hlive; auto]|].
      split.
      * destruct H2 as [H2|H2]; [left; auto|right]. destruct (Nat.eq_dec (pidx s q) n) as [E|E].
        -- rewrite E. apply spansb_spec. rewrite Hlo, Hhi. auto.
        -- unfold spans in *. rewrite HB, HE by auto. auto.
      * intros c Hc Hs. destruct (Nat.eq_dec c n) as [->|E].
        -- apply (H3 n Hc). apply spansb_spec. auto.
        -- unfold spans in Hs. rewrite HB, HE in Hs by auto. apply (H3 c Hc). auto.
    + destruct (I_pix _ _ _ _ HI q) as (H1 & H2 & H3).
      split; [destruct H1; [left; auto|right; apply Hlive; auto]|].
      split.
      * destruct H2 as [H2|H2]; [left; auto|right]. destruct (Nat.eq_dec (pidx s q) n) as [E|E].
        -- rewrite E in H2. apply spansb_spec in H2. congruence.
        -- unfold spans in *. rewrite HB, HE by auto. auto.
      * intros c Hc Hs. destruct (Nat.eq_dec c n) as [->|E].
        -- apply spansb_spec in Hs. rewrite Hlo, Hhi in Hs. congruence.
        -- unfold spans in Hs. rewrite HB, HE in Hs by auto. apply (H3 c Hc). auto.
Qed.

(* entries the code is about to overwrite hold what it expects *)
Lemma grow_entry s K rk n lo hi q : Inv nb s K rk -> live s n -> good_range s n lo hi ->
  spansb lo hi q = true -> spansb (b_begin (bigs s n)) (b_end (bigs s n)) q = false -> pidx s q = b_parent (bigs s n).
Proof.
  intros HI Hn [Gg Gm Gi Gk Gs Ga] H1 H2. eapply pix_is; eauto.
  - apply (I_par _ _ _ _ HI); auto.
  - destruct (I_par _ _ _ _ HI _ Hn) as [H|H]; [left; auto|right]. specialize (Gi ltac:(apply H)). unfold spans, spansb in *. lia.
  - intros c Hc Hs. destruct (Nat.eq_dec c n) as [->|E]; [apply spansb_spec in Hs; congruence|].
    apply (I_kid _ _ _ _ HI) in Hc. destruct Hc as [Lc Pc]. specialize (Gs c Lc E Pc).
    unfold spans, spansb, PAGE in *. lia.
Qed.
Lemma shrink_entry s K rk n lo hi q : Inv nb s K rk -> live s n -> good_range s n lo hi ->
  spansb lo hi q = false -> spansb (b_begin (bigs s n)) (b_end (bigs s n)) q = true -> pidx s q = n.
Proof.
  intros HI Hn [Gg Gm Gi Gk Gs Ga] H1 H2. eapply pix_is; eauto.
  - right; auto.
  - right. apply spansb_spec; auto.
  - intros c Hc Hs. apply (I_kid _ _ _ _ HI) in Hc. destruct Hc as [Lc Pc]. specialize (Gk c Lc Pc).
    unfold spans, spansb, PAGE in *. lia.
Qed.

(* common tail of the four resizing operations *)
Lemma resize_tail s K rk n lo hi s' :
  Inv nb s K rk -> live s n -> good_range s n lo hi ->
  (forall m, m <> n -> bigs s' m = bigs s m) -> bigs s' n = w_range (bigs s n) lo hi ->
  start s' = start s -> log s' = log s ->
  (forall q, pidx s' q =
     if spansb lo hi q && negb (spansb (b_begin (bigs s n)) (b_end (bigs s n)) q) then n
     else if spansb (b_begin (bigs s n)) (b_end (bigs s n)) q && negb (spansb lo hi q) then b_parent (bigs s n)
     else pidx s q) ->
  Inv nb s' K rk /\ resized s s' n lo hi /\ asrt dbg (sanity s' n) = Ok tt.
Proof.
  intros HI Hn HG HO HN Hst Hlg Hpx.
  assert (Hu : in_use (bigs s' n) = true) by (rewrite HN; unfold in_use; cbn; destruct HG; lia).
  assert (HI' : Inv nb s' K rk).
  { apply mkInv.
    - eapply links_same; [apply Inv_Links; eauto| | | | | |auto]; intro m;
        (destruct (Nat.eq_dec m n) as [->|E]; [|rewrite HO by auto; reflexivity]); [|rewrite HN; reflexivity..].
      rewrite Hu. symmetry. apply Hn.
    - eapply geo_resize with (s := s); eauto.
      + intros m Hm. rewrite HO; auto.
      + rewrite HN; reflexivity.
      + rewrite HN; reflexivity.
      + rewrite HN; reflexivity. }
  split; [auto|]. split.
  - split; [|auto]. intro m. destruct (Nat.eqb_spec m n) as [->|E].
    + rewrite live_view by (split; [apply Hn|auto]). rewrite HN. reflexivity.
    + apply attrs_view. rewrite HO; auto.
  - apply asrt_true. eapply sanity_ok; eauto. split; [apply Hn|auto].
Qed.

Lemma pages_between a b k : 
  (PAGENUM a <=? k) && (k <? PAGENUM a + PAGE_DIST a b) = (PAGENUM a <=? k) && (k <? PAGENUM b).
Proof. unfold PAGE_DIST. destruct (Z.ltb_spec (PAGENUM a) (PAGENUM b)); lia. Qed.
Lemma PAGENUM_RDOWN a : PAGENUM (RDOWN a) = a / PAGE.
Proof. unfold PAGENUM, RDOWN. apply Z.div_mul. unfold PAGE; lia. Qed.
Lemma PAGENUM_RUP a : PAGENUM (RUP a) = (a + (PAGE - 1)) / PAGE.
Proof. unfold PAGENUM, RUP. apply Z.div_mul. unfold PAGE; lia. Qed.

(* extension at the end *)
Lemma extend_ok s K rk n new_end :
  Inv nb s K rk -> live s n -> b_end (bigs s n) <= new_end ->
  good_range s n (b_begin (bigs s n)) new_end -> new_end - b_begin (bigs s n) <= biggest ->
  (b_begin (bigs s n) <= RDOWN (b_end (bigs s n)) \/ RDOWN new_end = RDOWN (b_end (bigs s n))) ->
  exists s', extend biggest dbg s n new_end = Ok s' /\ Inv nb s' K rk /\ resized s s' n (b_begin (bigs s n)) new_end.
Proof.
  intros HI Hn Hle HG Hsz Hpg. unfold extend. cbn zeta.
  pose proof (I_geo _ _ _ _ HI _ Hn) as Hgn.
  set (lo := b_begin (bigs s n)) in *. set (oe := b_end (bigs s n)) in *. set (p := b_parent (bigs s n)).
  assert (Hr : forall k, (PAGENUM (RDOWN oe) <=? k) && (k <? PAGENUM (RDOWN oe) + PAGE_DIST (RDOWN oe) (RDOWN new_end))
               = spansb lo new_end k && negb (spansb lo oe k)).
  { intro k. rewrite pages_between, !PAGENUM_RDOWN. unfold spansb. unfold RDOWN, PAGE in *. lia. }
  rewrite memset_ok.
  2:{ split; [apply PAGE_DIST_nonneg|]. unfold PAGE_DIST. rewrite !PAGENUM_RDOWN. unfold RDOWN, PAGE in *.
      destruct (Z.ltb_spec (oe / 4096) (new_end / 4096)); lia. }
  2:{ intros k Hk. autorewrite with big. right.
      assert (Hb : spansb lo new_end k && negb (spansb lo oe k) = true) by (rewrite <- Hr; lia).
      apply andb_true_iff in Hb. destruct Hb as [Hb1 Hb2]. apply negb_true_iff in Hb2.
      eapply grow_entry; eauto. }
  cbn [bind]. set (s2 := set_pidx _ _).
  destruct (resize_tail s K rk n lo new_end s2) as (A & B & C); auto.
  - intros m Hm. unfold s2. rewrite set_pidx_bigs. Transparent s_end. unfold s_end. rewrite put_bigs. destruct (Nat.eqb_spec m n); [congruence|reflexivity].
  - unfold s2. rewrite set_pidx_bigs. unfold s_end. rewrite put_bigs, Nat.eqb_refl. reflexivity.
  - intro q. unfold s2. rewrite set_pidx_pidx, Hr, s_end_pidx. fold lo oe p.
    destruct (spansb lo new_end q) eqn:E1; destruct (spansb lo oe q) eqn:E2; cbn [andb negb]; auto.
    exfalso. unfold spansb in *. lia.
  - rewrite C. cbn [bind]. exists s2. split; [reflexivity|]. split; auto.
Qed.

(* truncation at the end *)
Lemma truncate_end_ok s K rk n new_end :
  Inv nb s K rk -> live s n -> new_end <= b_end (bigs s n) ->
  good_range s n (b_begin (bigs s n)) new_end -> b_end (bigs s n) - b_begin (bigs s n) <= biggest ->
  (b_begin (bigs s n) <= RDOWN new_end \/ RDOWN new_end = RDOWN (b_end (bigs s n))) ->
  exists s', truncate_end biggest dbg s n new_end = Ok s' /\ Inv nb s' K rk /\ resized s s' n (b_begin (bigs s n)) new_end.
Proof.
  intros HI Hn Hle HG Hsz Hpg. unfold truncate_end. cbn zeta.
  pose proof (I_geo _ _ _ _ HI _ Hn) as Hgn. pose proof (gr_geo _ _ _ _ HG) as Hgg.
  set (lo := b_begin (bigs s n)) in *. set (oe := b_end (bigs s n)) in *. set (p := b_parent (bigs s n)).
  assert (Hr : forall k, (PAGENUM (RDOWN new_end) <=? k) && (k <? PAGENUM (RDOWN new_end) + PAGE_DIST (RDOWN new_end) (RDOWN oe))
               = spansb lo oe k && negb (spansb lo new_end k)).
  { intro k. rewrite pages_between, !PAGENUM_RDOWN. unfold spansb. unfold RDOWN, PAGE in *. lia. }
  rewrite memset_ok.
  2:{ split; [apply PAGE_DIST_nonneg|]. unfold PAGE_DIST. rewrite !PAGENUM_RDOWN. unfold RDOWN, PAGE in *.
      destruct (Z.ltb_spec (new_end / 4096) (oe / 4096)); lia. }
  2:{ intros k Hk. autorewrite with big. right.
      assert (Hb : spansb lo oe k && negb (spansb lo new_end k) = true) by (rewrite <- Hr; lia).
      apply andb_true_iff in Hb. destruct Hb as [Hb1 Hb2]. apply negb_true_iff in Hb2.
      eapply shrink_entry; eauto. }
  cbn [bind]. set (s2 := set_pidx _ _).
  destruct (resize_tail s K rk n lo new_end s2) as (A & B & C); auto.
  - intros m Hm. unfold s2. rewrite set_pidx_bigs. unfold s_end. rewrite put_bigs. destruct (Nat.eqb_spec m n); [congruence|reflexivity].
  - unfold s2. rewrite set_pidx_bigs. unfold s_end. rewrite put_bigs, Nat.eqb_refl. reflexivity.
  - intro q. unfold s2. rewrite set_pidx_pidx, Hr, s_end_pidx. fold lo oe p.
    destruct (spansb lo new_end q) eqn:E1; destruct (spansb lo oe q) eqn:E2; cbn [andb negb]; auto.
    exfalso. unfold spansb in *. lia.
  - rewrite C. cbn [bind]. exists s2. split; [reflexivity|]. split; auto.
Qed.

(* truncation at the beginning *)
Lemma truncate_begin_ok s K rk n new_begin :
  Inv nb s K rk -> live s n -> b_begin (bigs s n) <= new_begin ->
  good_range s n new_begin (b_end (bigs s n)) -> b_end (bigs s n) - b_begin (bigs s n) <= biggest ->
  (RUP new_begin <= b_end (bigs s n) \/ RUP new_begin = RUP (b_begin (bigs s n))) ->
  exists s', truncate_begin biggest dbg s n new_begin = Ok s' /\ Inv nb s' K rk /\ resized s s' n new_begin (b_end (bigs s n)).
Proof.
  intros HI Hn Hle HG Hsz Hpg. unfold truncate_begin. cbn zeta.
  pose proof (I_geo _ _ _ _ HI _ Hn) as Hgn. pose proof (gr_geo _ _ _ _ HG) as Hgg.
  set (ob := b_begin (bigs s n)) in *. set (hi := b_end (bigs s n)) in *. set (p := b_parent (bigs s n)).
  assert (Hr : forall k, (PAGENUM (RUP ob) <=? k) && (k <? PAGENUM (RUP ob) + PAGE_DIST (RUP ob) (RUP new_begin))
               = spansb ob hi k && negb (spansb new_begin hi k)).
  { intro k. rewrite pages_between, !PAGENUM_RUP. unfold spansb. unfold RUP, PAGE in *. lia. }
  rewrite memset_ok.
  2:{ split; [apply PAGE_DIST_nonneg|]. unfold PAGE_DIST. rewrite !PAGENUM_RUP. unfold RUP, PAGE in *.
      destruct (Z.ltb_spec ((ob + (4096 - 1)) / 4096) ((new_begin + (4096 - 1)) / 4096)); lia. }
  2:{ intros k Hk. autorewrite with big. right.
      assert (Hb : spansb ob hi k && negb (spansb new_begin hi k) = true) by (rewrite <- Hr; lia).
      apply andb_true_iff in Hb. destruct Hb as [Hb1 Hb2]. apply negb_true_iff in Hb2.
      eapply shrink_entry; eauto. }
  cbn [bind]. set (s2 := set_pidx _ _).
  destruct (resize_tail s K rk n new_begin hi s2) as (A & B & C); auto.
  - intros m Hm. unfold s2. rewrite set_pidx_bigs. Transparent s_begin. unfold s_begin. rewrite put_bigs. destruct (Nat.eqb_spec m n); [congruence|reflexivity].
  - unfold s2. rewrite set_pidx_bigs. unfold s_begin. rewrite put_bigs, Nat.eqb_refl. reflexivity.
  - intro q. unfold s2. rewrite set_pidx_pidx, Hr, s_begin_pidx. fold ob hi p.
    destruct (spansb new_begin hi q) eqn:E1; destruct (spansb ob hi q) eqn:E2; cbn [andb negb]; auto.
    exfalso. unfold spansb in *. lia.
  - rewrite C. cbn [bind]. exists s2. split; [reflexivity|]. split; auto.
Qed.

End Resize.
