(* Deletion of a subtree. *)
From Verif Require Import Base Big_model Big_set Big_spec Big_inv Big_lookup Big_links Big_field Big_create.

Lemma geo_remove nb s s' K rk n p l1 l2 :
  Inv nb s K rk -> K p = l1 ++ n :: l2 -> K n = [] ->
  (forall m, m <> n -> attrs_of (bigs s' m) = attrs_of (bigs s m)) -> in_use (bigs s' n) = false ->
  (forall q, pidx s' q = if spansb (b_begin (bigs s n)) (b_end (bigs s n)) q then p else pidx s q) ->
  Geo s' (Kset K p (l1 ++ l2)).
Proof.
  intros HI HK Hkn Hat Hu Hpix.
  assert (Hnk : In n (K p)) by (rewrite HK; apply in_mid; auto).
  pose proof (kid_live _ _ _ _ HI _ _ Hnk) as Hln. pose proof (kid_par _ _ _ _ HI _ _ Hnk) as Hpn.
  pose proof (I_nodup _ _ _ _ HI p) as Hnd. rewrite HK in Hnd.
  assert (Hni : ~ In n (l1 ++ l2)) by (eapply NoDup_remove_2; eauto).
  assert (Hlive : forall m, live s' m <-> m <> n /\ live s m).
  { intro m. unfold live. destruct (Nat.eq_dec m n) as [->|E]; [rewrite Hu; intuition congruence|].
    rewrite (attrs_in_use _ _ (Hat m E)). tauto. }
  assert (HB : forall m, m <> n -> b_begin (bigs s' m) = b_begin (bigs s m)) by (intros; apply attrs_begin; auto).
  assert (HE : forall m, m <> n -> b_end (bigs s' m) = b_end (bigs s m)) by (intros; apply attrs_end; auto).
  assert (HP : forall m, m <> n -> b_parent (bigs s' m) = b_parent (bigs s m)) by (intros; apply attrs_parent; auto).
  assert (HK' : forall q x, In x (Kset K p (l1 ++ l2) q) -> In x (K q) /\ x <> n).
  { intros q x Hx. destruct (Nat.eq_dec q p) as [->|E].
    - rewrite Kset_same in Hx. split; [rewrite HK; apply in_mid; auto|intros ->; auto].
    - rewrite Kset_other in Hx by auto. split; auto. intros ->. apply (kid_par _ _ _ _ HI) in Hx. congruence. }
  constructor.
  - intros m Hm. apply Hlive in Hm. destruct Hm as [E Hm]. rewrite HB, HE by auto. apply (I_geo _ _ _ _ HI); auto.
  - intros m Hm. apply Hlive in Hm. destruct Hm as [E Hm]. rewrite HP by auto. intro Hz.
    assert (b_parent (bigs s m) <> n).
    { intro E2. assert (In m (K n)) by (apply (I_kid _ _ _ _ HI); auto). rewrite Hkn in H. contradiction. }
    rewrite !HB, !HE by auto. apply (I_in _ _ _ _ HI); auto.
  - intros q a b Ha Hb Hab. apply HK' in Ha. apply HK' in Hb. destruct Ha, Hb. unfold disj. rewrite !HB, !HE by auto.
    apply (I_disj _ _ _ _ HI q); auto.
  - pose proof (I_before _ _ _ _ HI) as Hb. destruct (Nat.eq_dec 0 p) as [<-|E].
    + rewrite Kset_same. rewrite HK in Hb. apply before_app in Hb. cbn [before] in Hb. destruct Hb as (Hb1 & (_ & Hb2) & Hb3).
      apply before_ext with (s := s).
      { intros x Hx. assert (x <> n) by (intros ->; auto). split; auto. }
      apply before_app. split; [auto|]. split; [auto|]. intros x y Hx Hy. apply Hb3; simpl; auto.
    + rewrite Kset_other by auto. apply before_ext with (s := s); auto.
      intros x Hx. assert (x <> n) by (intros ->; apply (kid_par _ _ _ _ HI) in Hx; congruence). split; auto.
  - intros m Hm. apply HK' in Hm. destruct Hm as [Hm E]. rewrite HB, HE by auto. apply (I_align _ _ _ _ HI); auto.
  - intro q. rewrite Hpix. destruct (spansb (b_begin (bigs s n)) (b_end (bigs s n)) q) eqn:Eq.
    + apply spansb_spec in Eq.
      assert (Hnode : node s p) by (rewrite <- Hpn; apply (I_par _ _ _ _ HI); auto).
      assert (Hpne : p <> n) by (intros ->; rewrite Hkn in HK; destruct l1; discriminate).
      split; [destruct Hnode; [left; auto|right; apply Hlive; auto]|].
      split.
      * destruct Hnode as [H|H]; [left; auto|right].
        pose proof (I_in _ _ _ _ HI _ Hln ltac:(rewrite Hpn; apply H)) as Hi. rewrite Hpn in Hi.
        unfold spans in *. rewrite HB, HE by auto. lia.
      * intros c Hc. apply HK' in Hc. destruct Hc as [Hc E]. unfold spans in *. rewrite HB, HE by auto.
        pose proof (I_disj _ _ _ _ HI _ _ _ Hc Hnk E) as Hd. unfold disj in Hd. unfold PAGE in *. lia.
    + destruct (I_pix _ _ _ _ HI q) as (H1 & H2 & H3).
      assert (pidx s q <> n).
      { intro E. rewrite E in H2. destruct H2 as [H2|H2]; [apply (live_nz _ _ Hln); auto|]. apply spansb_spec in H2. congruence. }
      split; [destruct H1; [left; auto|right; apply Hlive; auto]|].
      split; [destruct H2; [left; auto|right; unfold spans in *; rewrite HB, HE by auto; auto]|].
      intros c Hc. apply HK' in Hc. destruct Hc as [Hc E]. unfold spans. rewrite HB, HE by auto. apply H3; auto.
Qed.

Section Delete.
Variables (nb : nat) (biggest : Z) (dbg : bool).

Lemma del_leaf_ok s K rk n p l1 l2 :
  Inv nb s K rk -> K p = l1 ++ n :: l2 -> K n = [] -> start s <> n ->
  b_end (bigs s n) - b_begin (bigs s n) <= biggest ->
  exists s', del_leaf biggest dbg s n = Ok s' /\ Inv nb s' (Kset K p (l1 ++ l2)) rk /\
    in_use (bigs s' n) = false /\ (forall m, m <> n -> attrs_of (bigs s' m) = attrs_of (bigs s m)) /\
    log s' = log s ++ freed (attrs_of (bigs s n)) /\ start s' = start s.
Proof.
  intros HI HK Hkn Hst Hsz.
  pose proof (Inv_Links _ _ _ _ HI) as HL.
  assert (Hnk : In n (K p)) by (rewrite HK; apply in_mid; auto).
  pose proof (kid_live _ _ _ _ HI _ _ Hnk) as Hln. pose proof (kid_par _ _ _ _ HI _ _ Hnk) as Hpn.
  pose proof (I_geo _ _ _ _ HI _ Hln) as Hg.
  pose proof (L_nodup _ _ _ _ HL p) as Hnd. rewrite HK in Hnd.
  assert (Hni : ~ In n (l1 ++ l2)) by (eapply NoDup_remove_2; eauto).
  assert (Hpne : p <> n) by (intros ->; rewrite Hkn in HK; destruct l1; discriminate).
  pose proof (L_dll _ _ _ _ HL p) as Hd. rewrite HK in Hd. apply dllx_app in Hd. cbn [dllx] in Hd.
  destruct Hd as (_ & Hpv & Hnx & _).
  assert (Hpvn : b_prev (bigs s n) <> n).
  { rewrite Hpv. intro Hx. destruct l1 as [|w l1]; [cbn in Hx; apply (live_nz _ _ Hln); auto|].
    apply Hni, in_or_app. left. rewrite <- Hx at 1. apply last_In. congruence. }
  assert (Hnxn : b_next (bigs s n) <> n).
  { rewrite Hnx. intro Hx. destruct l2 as [|w l2]; [cbn in Hx; apply (live_nz _ _ Hln); auto|].
    apply Hni, in_or_app. right. cbn [hd] in Hx. subst. simpl; auto. }
  assert (Hknz : forall x, In x (l1 ++ n :: l2) -> x <> 0%nat) by (intros x Hx; rewrite <- HK in Hx; eapply kid_nz; eauto).
  unfold del_leaf. cbn zeta. autorewrite with big. rewrite Hpn.
  set (lg := _ ++ _ : list nat). set (s1 := add_log s lg).
  assert (B1 : bigs s1 = bigs s) by (unfold s1; autorewrite with big; reflexivity).
  assert (Hun : exists s2, (if Nat.eqb p 0 then Ok (unlink_toplevel s1 n) else unlink_child dbg s1 n) = Ok s2 /\ same_data s1 s2 /\
     (forall m, m <> n -> b_parent (bigs s2 m) = b_parent (bigs s m)) /\ b_parent (bigs s2 n) = 0%nat /\
     (forall m, live s m -> b_first (bigs s2 m) = if Nat.eqb m p then hd 0%nat (l1 ++ l2) else b_first (bigs s m)) /\
     (forall m, m <> n -> live s m -> b_next (bigs s2 m) = if Nat.eqb m (last l1 0%nat) then hd 0%nat l2 else b_next (bigs s m)) /\
     (forall m, m <> n -> live s m -> b_prev (bigs s2 m) = if Nat.eqb m (hd 0%nat l2) then last l1 0%nat else b_prev (bigs s m))).
  { destruct (Nat.eqb_spec p 0) as [Ep|Ep].
    - destruct (unlink_toplevel_ok s1 n) as (A & B & C & D & E); rewrite ?B1 in *; auto; [apply Hln|].
      eexists; split; [reflexivity|]. split; [exact A|]. rewrite Hpv in D, E. rewrite Hnx in D, E.
      split; [intros m _; apply B|]. split; [rewrite B, Hpn; auto|].
      split; [intros m Hm; rewrite C; destruct (Nat.eqb_spec m p); [destruct Hm; congruence|auto]|].
      split; intros m Hmn Hm; [apply D|apply E]; apply Hm.
    - assert (Hlp : live s p) by (destruct (I_par _ _ _ _ HI _ Hln) as [H|H]; congruence).
      pose proof (L_first _ _ _ _ HL p Hlp) as Hfp. rewrite HK in Hfp.
      assert (Hl1 : l1 <> [] -> hd 0%nat (l1 ++ n :: l2) <> n /\ hd 0%nat (l1 ++ n :: l2) = hd 0%nat (l1 ++ l2) /\ last l1 0%nat <> 0%nat).
      { destruct l1 as [|w l1]; [congruence|]. intros _. cbn [app hd]. split; [|split; [auto|]].
        - intros ->. apply Hni. simpl; auto.
        - apply Hknz. apply in_or_app. left. apply last_In. congruence. }
      destruct (unlink_child_ok dbg s1 n p) as (s2 & A & B & C & D & E & F); rewrite ?B1 in *; auto.
      + apply Hln.
      + rewrite Hfp, Hpv. destruct l1 as [|w l1]; [cbn; tauto|]. destruct (Hl1 ltac:(congruence)) as (H1 & _ & H2). split; tauto.
      + exists s2. split; [exact A|]. split; [exact B|]. rewrite Hpv in E, F. rewrite Hnx in E, F, D. rewrite Hfp in D.
        split; [intros m Hmn; rewrite C; destruct (Nat.eqb_spec m n); congruence|].
        split; [rewrite C, Nat.eqb_refl; auto|].
        split.
        * intros m Hm. rewrite D. destruct (Nat.eqb_spec m p) as [->|E2]; [|reflexivity]. cbn [andb].
          destruct l1 as [|w l1]; [cbn [app hd]; rewrite Nat.eqb_refl; reflexivity|].
          destruct (Hl1 ltac:(congruence)) as (H1 & H2 & _). destruct (Nat.eqb_spec n (hd 0%nat ((w :: l1) ++ n :: l2))); [congruence|].
          rewrite Hfp; auto.
        * split; intros m Hmn Hm; [rewrite E|rewrite F]; try apply Hm; (destruct (Nat.eqb_spec m n); [congruence|auto]). }
  destruct Hun as (s2 & -> & Hsd & HP & HPn & HF & HN & HV). cbn [bind].
  pose proof Hsd as (HD & Hpx & Hst2 & Hlg). destruct (HD n) as (-> & -> & _). rewrite B1.
  rewrite memset_ok.
  2:{ split; [apply PAGE_DIST_nonneg|apply page_dist_le; lia]. }
  2:{ intros k Hk. rewrite Hpx. unfold s1. autorewrite with big. right.
      assert (Hsp : spansb (b_begin (bigs s n)) (b_end (bigs s n)) k = true) by (rewrite <- page_range; lia).
      eapply pix_is; eauto.
      - right; auto.
      - right. apply spansb_spec; auto.
      - rewrite Hkn. intros c []. }
  cbn [bind]. set (s3 := set_pidx s2 _). set (s4 := put s3 n _).
  assert (B4 : forall m, m <> n -> bigs s4 m = bigs s2 m).
  { intros m Hm. unfold s4. rewrite put_bigs. destruct (Nat.eqb_spec m n); [congruence|]. unfold s3. autorewrite with big. reflexivity. }
  assert (B4n : bigs s4 n = w_range (bigs s2 n) 0 0) by (unfold s4; rewrite put_bigs, Nat.eqb_refl; reflexivity).
  assert (Hat : forall m, m <> n -> attrs_of (bigs s4 m) = attrs_of (bigs s m)).
  { intros m Hm. rewrite B4 by auto. unfold attrs_of. destruct (HD m) as (-> & -> & -> & -> & -> & ->). rewrite HP, B1 by auto. reflexivity. }
  assert (Hu4 : in_use (bigs s4 n) = false) by (rewrite B4n; reflexivity).
  exists s4. split; [reflexivity|]. split; [|split; [auto|split; [exact Hat|]]].
  - apply mkInv.
    + apply links_remove with (s := s) (n := n); [exact HL|exact HK|exact Hkn|exact Hu4| | | | | | |exact Hst].
      * intros m Hm. apply attrs_in_use. auto.
      * intro m. destruct (Nat.eqb_spec m n) as [->|E]; [rewrite B4n; exact HPn|]. rewrite B4 by auto. auto.
      * intros m Hm Hlm. rewrite B4 by auto. auto.
      * intros m Hm Hlm. rewrite B4 by auto. auto.
      * intros m Hm Hlm. rewrite B4 by auto. auto.
      * unfold s4, s3. autorewrite with big. rewrite Hst2. unfold s1. autorewrite with big. reflexivity.
    + eapply geo_remove with (s := s) (n := n); eauto.
      intro q. unfold s4, s3. autorewrite with big. rewrite page_range, Hpx. unfold s1. autorewrite with big. reflexivity.
  - unfold s4, s3. autorewrite with big. rewrite Hst2, Hlg. unfold s1. split; [|autorewrite with big; reflexivity].
    reflexivity.
Qed.

Lemma anc_keep s s' D a :
  (forall m, ~ In m D -> attrs_of (bigs s' m) = attrs_of (bigs s m)) ->
  (forall m, live s m -> ~ In m D -> b_parent (bigs s m) <> 0%nat -> live s (b_parent (bigs s m)) /\ ~ In (b_parent (bigs s m)) D) ->
  forall m, live s m -> ~ In m D -> (anc s' a m <-> anc s a m).
Proof.
  intros Hat Hup m Hl Hm. split.
  - intro H. induction H as [|m Hp Ha IH]; [apply anc_refl|].
    assert (E : b_parent (bigs s' m) = b_parent (bigs s m)) by (apply attrs_parent; auto).
    rewrite E in *. destruct (Hup m Hl Hm Hp). apply anc_up; auto.
  - intro H. induction H as [|m Hp Ha IH]; [apply anc_refl|].
    assert (E : b_parent (bigs s' m) = b_parent (bigs s m)) by (apply attrs_parent; auto).
    destruct (Hup m Hl Hm Hp). apply anc_up; rewrite E; auto.
Qed.

Record del_post (s s' : st) (D : list nat) : Prop := {
  dp_nodup : NoDup D;
  dp_dead : forall m, In m D -> in_use (bigs s' m) = false;
  dp_attrs : forall m, ~ In m D -> attrs_of (bigs s' m) = attrs_of (bigs s m);
  dp_log : log s' = log s ++ flat_map (fun m => freed (attrs_of (bigs s m))) D;
  dp_start : start s' = start s }.

Lemma NoDup_app (l1 l2 : list nat) : NoDup l1 -> NoDup l2 -> (forall x, In x l1 -> ~ In x l2) -> NoDup (l1 ++ l2).
Proof.
  induction l1 as [|x l1 IH]; intros H1 H2 H; [auto|]. inversion H1; subst. cbn [app]. constructor.
  - intro Hx. apply in_app_or in Hx. destruct Hx; [auto|]. apply (H x); simpl; auto.
  - apply IH; auto. intros y Hy. apply H; simpl; auto.
Qed.

Lemma flat_map_ext_in (f g : nat -> list nat) l : (forall x, In x l -> f x = g x) -> flat_map f l = flat_map g l.
Proof.
  induction l as [|x l IH]; intro H; [reflexivity|]. cbn [flat_map]. rewrite (H x), IH; simpl; auto.
  intros; apply H; simpl; auto.
Qed.

Lemma del_post_app s s1 s2 D1 D2 : del_post s s1 D1 -> del_post s1 s2 D2 -> (forall x, In x D2 -> ~ In x D1) ->
  del_post s s2 (D1 ++ D2).
Proof.
  intros H1 H2 Hs. constructor.
  - apply NoDup_app; [apply H1|apply H2|]. intros x Hx Hx2. eapply Hs; eauto.
  - intros m Hm. destruct (in_dec Nat.eq_dec m D2) as [Hi|Hi]; [apply (dp_dead _ _ _ H2); auto|].
    rewrite (attrs_in_use _ _ (dp_attrs _ _ _ H2 m Hi)). apply in_app_or in Hm. destruct Hm; [|contradiction].
    apply (dp_dead _ _ _ H1); auto.
  - intros m Hm. rewrite in_app_iff in Hm. rewrite (dp_attrs _ _ _ H2), (dp_attrs _ _ _ H1); tauto.
  - rewrite (dp_log _ _ _ H2), (dp_log _ _ _ H1), flat_map_app, <- app_assoc. do 2 f_equal.
    apply flat_map_ext_in. intros x Hx. rewrite (dp_attrs _ _ _ H1); auto.
  - rewrite (dp_start _ _ _ H2). apply H1.
Qed.

Lemma del_post_live s s' D m : del_post s s' D -> (live s' m <-> live s m /\ ~ In m D).
Proof.
  intro HP. destruct (in_dec Nat.eq_dec m D) as [Hi|Hi].
  - unfold live. rewrite (dp_dead _ _ _ HP m Hi). intuition congruence.
  - unfold live. rewrite (attrs_in_use _ _ (dp_attrs _ _ _ HP m Hi)). tauto.
Qed.

Definition kids_loop (f : nat) : nat -> st -> nat -> res st :=
  fix del_kids (g : nat) (s : st) (c : nat) : res st :=
    match g with
    | O => Fuel
    | S g' => if Nat.eqb c 0 then Ok s
              else let nx := b_next (bigs s c) in
                   do s' <- del nb biggest dbg f s c ; del_kids g' s' nx
    end.
Lemma del_S f s n : del nb biggest dbg (S f) s n =
  (do _ <- asrt dbg (sanity s n) ; do s1 <- kids_loop f (S nb) s (b_first (bigs s n)) ; del_leaf biggest dbg s1 n).
Proof. reflexivity. Qed.

Lemma del_ok : forall fuel s K rk n p l1 l2 V,
  Inv nb s K rk -> passed s rk V n -> live s n -> (nb < fuel + length V)%nat ->
  K p = l1 ++ n :: l2 -> ~ (anc s n (start s)) ->
  b_end (bigs s n) - b_begin (bigs s n) <= biggest ->
  exists s' K' D, del nb biggest dbg fuel s n = Ok s' /\ Inv nb s' K' rk /\ subtree s n D /\
    del_post s s' D /\
    K' p = l1 ++ l2 /\ (forall q, q <> p -> ~ In q D -> K' q = K q).
Proof.
  induction fuel as [|fuel IH]; intros s K rk n p l1 l2 V HI HV Hn Hf HK Hst Hsz.
  { exfalso. pose proof (passed_bound _ _ _ _ HI _ _ HV Hn). lia. }
  rewrite del_S. rewrite asrt_true by (eapply sanity_ok; eauto). cbn [bind].
  assert (Hpn : b_parent (bigs s n) = p) by (apply (kid_par _ _ _ _ HI); rewrite HK; apply in_mid; auto).
  assert (Hrp : p <> 0%nat -> (rk p < rk n)%nat).
  { intro E. rewrite <- Hpn. apply (I_rk _ _ _ _ HI); auto. rewrite Hpn; auto. }
  assert (Hpne : p <> n) by (intros ->; specialize (Hrp (live_nz _ _ Hn)); lia).
  set (kids := kids_loop fuel).
  (* deleting the remaining children l of n *)
  assert (Hkids : forall l g s0 K0, (length l < g)%nat -> Inv nb s0 K0 rk -> K0 n = l -> live s0 n ->
     passed s0 rk V n -> ~ anc s0 n (start s0) ->
     b_end (bigs s0 n) - b_begin (bigs s0 n) <= biggest ->
     exists s' K' D, kids g s0 (hd 0%nat l) = Ok s' /\ Inv nb s' K' rk /\
       (forall x, In x D <-> (live s0 x /\ anc s0 n x /\ x <> n)) /\ del_post s0 s' D /\
       K' n = [] /\ (forall q, q <> n -> ~ In q D -> K' q = K0 q)).
  { induction l as [|c l IHl]; intros g s0 K0 Hg HI0 HK0 Hn0 HV0 Hst0 Hsz0; (destruct g as [|g]; [cbn [length] in Hg; lia|]).
    - exists s0, K0, []. cbn [hd]. unfold kids; cbn. split; [reflexivity|]. split; [auto|]. split.
      + intro x. split; [intros []|]. intros (H1 & H2 & H3).
        destruct (anc_child _ _ _ _ HI0 _ _ H2 H1 ltac:(auto)) as (d & Hd & Hpd & _).
        assert (In d (K0 n)) by (apply (I_kid _ _ _ _ HI0); auto). rewrite HK0 in H. contradiction.
      + split; [constructor|auto].
        * constructor.
        * intros m [].
        * auto.
        * cbn. rewrite app_nil_r. reflexivity.
        * reflexivity.
    - cbn [hd].
      assert (Hc : In c (K0 n)) by (rewrite HK0; simpl; auto).
      pose proof (kid_live _ _ _ _ HI0 _ _ Hc) as Hlc. pose proof (kid_par _ _ _ _ HI0 _ _ Hc) as Hpc.
      pose proof (kid_rk _ _ _ _ HI0 _ _ Hn0 Hc) as Hrc. pose proof (kid_anc _ _ _ _ HI0 _ _ Hn0 Hc) as Hac.
      assert (Hnext : b_next (bigs s0 c) = hd 0%nat l).
      { pose proof (I_dll _ _ _ _ HI0 n) as Hd. rewrite HK0 in Hd. cbn [dll] in Hd. tauto. }
      assert (Hstep : kids (S g) s0 c = if Nat.eqb c 0 then Ok s0 else do s' <- del nb biggest dbg fuel s0 c ; kids g s' (b_next (bigs s0 c))) by reflexivity.
      rewrite Hstep. clear Hstep. destruct (Nat.eqb_spec c 0) as [Ec|_]; [exfalso; apply (live_nz _ _ Hlc); auto|].
      pose proof (passed_cons s0 rk V n c HV0 Hn0 Hrc) as HV1.
      pose proof (I_in _ _ _ _ HI0 _ Hlc ltac:(rewrite Hpc; apply Hn0)) as Hinc. rewrite Hpc in Hinc.
      destruct (IH s0 K0 rk c n [] l (n :: V)) as (s1 & K1 & D1 & Hdel & HI1 & HD1 & HP1 & HK1 & HK1'); auto.
      { cbn [length]. lia. }
      { intro Hx. apply Hst0. eapply anc_trans; eauto. }
      { lia. }
      unfold subtree in HD1. rewrite Hdel. cbn [bind]. rewrite Hnext. cbn [app] in HK1.
      assert (Hup1 : forall m, live s0 m -> ~ In m D1 -> b_parent (bigs s0 m) <> 0%nat ->
                      live s0 (b_parent (bigs s0 m)) /\ ~ In (b_parent (bigs s0 m)) D1).
      { intros m Hm H1 H2. split; [destruct (I_par _ _ _ _ HI0 _ Hm); [congruence|auto]|].
        intro H3. apply HD1 in H3. apply H1, HD1. split; auto. apply anc_up; tauto. }
      assert (Hlow : forall v, live s0 v -> (rk v < rk c)%nat -> ~ In v D1).
      { intros v Hv Hr Hx. apply HD1 in Hx. destruct Hx as [_ Hx]. destruct (anc_rk _ _ _ _ HI0 _ _ Hx Hv); [subst|]; lia. }
      assert (HnD : ~ In n D1) by (apply Hlow; auto).
      assert (Hlive1 : forall m, live s1 m <-> live s0 m /\ ~ In m D1) by (intro; apply del_post_live; auto).
      pose proof (anc_keep _ _ _ n (dp_attrs _ _ _ HP1) Hup1) as Hanc.
      assert (Hstl : live s0 (start s0)) by (eapply kid_live; eauto; apply (I_start _ _ _ _ HI0)).
      destruct (IHl g s1 K1) as (s2 & K2 & D2 & Hdel2 & HI2 & HD2 & HP2 & HK2 & HK2'); auto.
      { cbn [length] in Hg. lia. }
      { apply Hlive1. auto. }
      { destruct HV0 as [HVn HVl]. split; auto. intros v Hv. specialize (HVl v Hv). split; [|tauto].
        apply Hlive1. split; [tauto|]. apply Hlow; [tauto|lia]. }
      { rewrite (dp_start _ _ _ HP1). rewrite Hanc; auto. intro Hx. apply HD1 in Hx. apply Hst0. eapply anc_trans; [|apply Hx]; auto. }
      { rewrite (attrs_begin _ _ (dp_attrs _ _ _ HP1 n HnD)), (attrs_end _ _ (dp_attrs _ _ _ HP1 n HnD)). auto. }
      rewrite Hdel2. exists s2, K2, (D1 ++ D2).
      assert (Hsep : forall x, In x D2 -> ~ In x D1).
      { intros x Hx. apply HD2 in Hx. destruct Hx as [Hx _]. apply Hlive1 in Hx. tauto. }
      split; [reflexivity|]. split; [auto|]. split; [|split; [eapply del_post_app; eauto|split; [auto|]]].
      + intro x. rewrite in_app_iff, HD1, HD2, Hlive1. split.
        * intros [[H1 H2]|[[H1 H1'] [H2 H3]]].
          -- split; [auto|]. split; [eapply anc_trans; eauto|]. intros ->. apply HnD, HD1. auto.
          -- split; [auto|]. split; [apply Hanc; auto|auto].
        * intros (H1 & H2 & H3). destruct (in_dec Nat.eq_dec x D1) as [Hi|Hi]; [left; apply HD1; auto|right].
          split; [auto|]. split; [apply Hanc; auto|auto].
      + intros q Hq1 Hq2. rewrite in_app_iff in Hq2. rewrite HK2', HK1'; tauto. }
  destruct (Hkids (K n) (S nb) s K) as (s1 & K1 & D1 & Hdel1 & HI1 & HD1 & HP1 & HK1 & HK1'); auto.
  { eapply kids_length'; eauto. }
  rewrite (I_first _ _ _ _ HI _ Hn), Hdel1. cbn [bind].
  assert (HnD : ~ In n D1) by (intro Hx; apply HD1 in Hx; tauto).
  assert (HpD : ~ In p D1).
  { intro Hx. apply HD1 in Hx. destruct Hx as (H1 & H2 & H3). specialize (Hrp (live_nz _ _ H1)).
    destruct (anc_rk _ _ _ _ HI _ _ H2 H1); [congruence|lia]. }
  assert (Hst1 : start s <> n) by (intros E; apply Hst; rewrite E; apply anc_refl).
  pose proof (dp_attrs _ _ _ HP1 n HnD) as Han.
  destruct (del_leaf_ok s1 K1 rk n p l1 l2) as (s2 & Hdl & HI2 & Hu2 & Hat2 & Hlg2 & Hst2); auto.
  { rewrite HK1' by auto. auto. }
  { rewrite (dp_start _ _ _ HP1). auto. }
  { rewrite (attrs_begin _ _ Han), (attrs_end _ _ Han). auto. }
  rewrite Hdl. exists s2, (Kset K1 p (l1 ++ l2)), (D1 ++ [n]).
  split; [reflexivity|]. split; [auto|]. split; [|split; [|split; [apply Kset_same|]]].
  - intro x. rewrite in_app_iff, HD1. cbn [In]. split.
    + intros [(H1 & H2 & H3)|[<-|[]]]; [auto|]. split; [auto|apply anc_refl].
    + intros [H1 H2]. destruct (Nat.eq_dec x n) as [->|E]; [right; auto|left; auto].
  - eapply del_post_app; [exact HP1| |].
    + constructor.
      * repeat constructor. simpl; auto.
      * intros m [<-|[]]. auto.
      * intros m Hm. apply Hat2. intros ->. apply Hm; simpl; auto.
      * cbn [flat_map]. rewrite app_nil_r. auto.
      * auto.
    + intros x [<-|[]]. auto.
  - intros q Hq Hq2. rewrite in_app_iff in Hq2. rewrite Kset_other by auto. apply HK1'; [|tauto].
    intros ->. apply Hq2. simpl; auto.
Qed.

Lemma del_post_gone s s' D : (forall m, In m D -> m <> 0%nat) -> del_post s s' D -> gone s s' D.
Proof.
  intros Hz H. constructor; try apply H. intro m. destruct (existsb (Nat.eqb m) D) eqn:E.
  - apply existsb_exists in E. destruct E as (x & Hx & Ex). apply Nat.eqb_eq in Ex. subst x.
    unfold view. rewrite (dp_dead _ _ _ H m Hx). rewrite andb_false_r. reflexivity.
  - apply attrs_view, H. intro Hx. assert (existsb (Nat.eqb m) D = true); [|congruence].
    apply existsb_exists. exists m. split; auto. apply Nat.eqb_refl.
Qed.

(* bigalloc_del deletes exactly the subtree. *)
Lemma bigalloc_del_ok s K rk n :
  Inv nb s K rk -> live s n -> ~ anc s n (start s) -> b_end (bigs s n) - b_begin (bigs s n) <= biggest ->
  exists s' K' D, bigalloc_del nb biggest dbg s n = Ok s' /\ Inv nb s' K' rk /\ subtree s n D /\ gone s s' D.
Proof.
  intros HI Hn Hst Hsz.
  destruct (in_split _ _ (live_kid _ _ _ _ HI _ Hn)) as (l1 & l2 & HK).
  destruct (del_ok (S nb) s K rk n (b_parent (bigs s n)) l1 l2 [] HI) as (s' & K' & D & H1 & H2 & H3 & H4 & _); auto.
  - apply passed_nil.
  - cbn [length]; lia.
  - exists s', K', D. split; [exact H1|]. split; [auto|]. split; [auto|]. apply del_post_gone; auto.
    intros m Hm. apply H3 in Hm. apply Hm.
Qed.
End Delete.
