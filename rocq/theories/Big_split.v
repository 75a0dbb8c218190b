(* Splitting a big allocation at a page boundary. *)
From Verif Require Import Base Big_model Big_set Big_spec Big_inv Big_lookup Big_links Big_field Big_create Big_resize.

Section Split.
Variables (nb : nat) (biggest : Z) (dbg : bool).

(* one child moves to the front of the other list *)
Lemma move_one s K rk c b w l1 l2 :
  Links nb s K rk -> K b = l1 ++ c :: l2 -> b <> w -> b <> 0%nat -> live s w -> (rk w < rk c)%nat ->
  exists s1 s2, unlink_child dbg s c = Ok s1 /\ add_child dbg s1 c w = Ok s2 /\ same_data s s2 /\
    (forall m, b_parent (bigs s2 m) = if Nat.eqb m c then w else b_parent (bigs s m)) /\
    Links nb s2 (Kset (Kset K b (l1 ++ l2)) w (c :: K w)) rk.
Proof.
  intros HL HK Hbw Hb Hw Hrk.
  assert (Hck : In c (K b)) by (rewrite HK; apply in_mid; auto).
  apply (L_kid _ _ _ _ HL) in Hck. destruct Hck as [Lc Pc].
  assert (Hcb : c <> b).
  { intro E. assert (Hz : b_parent (bigs s c) <> 0%nat) by (rewrite Pc; auto). pose proof (L_rk _ _ _ _ HL _ Lc Hz) as R. rewrite Pc, E in R. lia. }
  assert (Hcw : c <> w) by (intro E; rewrite E in Hrk; lia).
  assert (Lb : live s b) by (destruct (L_par _ _ _ _ HL _ Lc) as [H|H]; rewrite Pc in H; [congruence|auto]).
  pose proof (L_nodup _ _ _ _ HL b) as Hnd. rewrite HK in Hnd.
  assert (Hni : ~ In c (l1 ++ l2)) by (eapply NoDup_remove_2; eauto).
  pose proof (L_dll _ _ _ _ HL b) as Hd. rewrite HK in Hd. apply dllx_app in Hd. cbn [dllx] in Hd.
  destruct Hd as (_ & Hpv & Hnx & _).
  assert (Hknz : forall x, In x (l1 ++ c :: l2) -> x <> 0%nat) by (intros x Hx; rewrite <- HK in Hx; apply (L_kid _ _ _ _ HL) in Hx; apply Hx).
  assert (Hpvn : b_prev (bigs s c) <> c).
  { rewrite Hpv. intro Hx. destruct l1 as [|y l1]; [cbn in Hx; apply (live_nz _ _ Lc); auto|].
    apply Hni, in_or_app. left. rewrite <- Hx at 1. apply last_In. congruence. }
  assert (Hnxn : b_next (bigs s c) <> c).
  { rewrite Hnx. intro Hx. destruct l2 as [|y l2]; [cbn in Hx; apply (live_nz _ _ Lc); auto|].
    apply Hni, in_or_app. right. cbn [hd] in Hx. subst. simpl; auto. }
  pose proof (L_first _ _ _ _ HL b Lb) as Hfp. rewrite HK in Hfp.
  assert (Hl1 : l1 <> [] -> hd 0%nat (l1 ++ c :: l2) <> c /\ hd 0%nat (l1 ++ c :: l2) = hd 0%nat (l1 ++ l2) /\ last l1 0%nat <> 0%nat).
  { destruct l1 as [|y l1]; [congruence|]. intros _. cbn [app hd]. split; [|split; [auto|]].
    - intros ->. apply Hni. simpl; auto.
    - apply Hknz. apply in_or_app. left. apply last_In. congruence. }
  destruct (unlink_child_ok dbg s c b) as (s1 & A & B & C & D & E & F); auto.
  { apply Lc. }
  { rewrite Hfp, Hpv. destruct l1 as [|y l1]; [cbn; tauto|]. destruct (Hl1 ltac:(congruence)) as (H1 & _ & H2). split; tauto. }
  rewrite Hpv in E, F. rewrite Hnx in E, F, D. rewrite Hfp in D.
  pose proof (L_first _ _ _ _ HL w Hw) as Hfw.
  assert (F1w : b_first (bigs s1 w) = hd 0%nat (K w)).
  { rewrite D. destruct (Nat.eqb_spec w b); [congruence|]. cbn [andb]. auto. }
  assert (Hwz : w <> 0%nat) by apply Hw.
  assert (Hcw2 : ~ In c (K w)) by (intro H; apply (L_kid _ _ _ _ HL) in H; destruct H; congruence).
  assert (Hhw : hd 0%nat (K w) <> c).
  { intro H. apply Hcw2. rewrite <- H. apply hd_In. rewrite H. apply Lc. }
  assert (Hkw : hd 0%nat (K w) <> 0%nat -> b_prev (bigs s (hd 0%nat (K w))) = 0%nat).
  { intro H. pose proof (L_dll _ _ _ _ HL w) as Hd. destruct (K w); [cbn in H; congruence|]. apply Hd. }
  destruct (add_child_ok dbg s1 c w) as (s2 & A2 & B2 & C2 & D2 & E2 & F2); auto.
  { apply Lc. }
  { rewrite C, Nat.eqb_refl. auto. }
  { rewrite E, Nat.eqb_refl by apply Lc. auto. }
  { rewrite F, Nat.eqb_refl by apply Lc. auto. }
  { rewrite F1w. auto. }
  { rewrite F1w. intro H. rewrite F by auto. destruct (Nat.eqb_spec (hd 0%nat (K w)) c); [congruence|].
    destruct (Nat.eqb_spec (hd 0%nat (K w)) (hd 0%nat l2)) as [E3|E3]; auto.
    exfalso. rewrite E3 in H. assert (Hin : In (hd 0%nat l2) (K b)) by (rewrite HK; apply in_or_app; right; right; apply hd_In; auto).
    assert (Hin2 : In (hd 0%nat l2) (K w)) by (rewrite <- E3; apply hd_In; rewrite E3; auto).
    apply (L_kid _ _ _ _ HL) in Hin. apply (L_kid _ _ _ _ HL) in Hin2. destruct Hin, Hin2. congruence. }
  rewrite F1w in E2, F2.
  exists s1, s2. split; [exact A|]. split; [exact A2|]. split; [eapply same_data_trans; eauto|].
  assert (HP : forall m, b_parent (bigs s2 m) = if Nat.eqb m c then w else b_parent (bigs s m)).
  { intro m. rewrite C2, C. destruct (Nat.eqb_spec m c); auto. }
  split; [exact HP|].
  apply links_move with (s := s); auto.
  - intro m. apply same_data_in_use. eapply same_data_trans; eauto.
  - intros m Lm. rewrite D2, D. destruct (Nat.eqb_spec m w); auto. destruct (Nat.eqb_spec m b) as [->|]; cbn [andb]; auto.
    destruct l1 as [|y l1]; [cbn [app hd]; rewrite Nat.eqb_refl; reflexivity|].
    destruct (Hl1 ltac:(congruence)) as (H1 & H2 & _). destruct (Nat.eqb_spec c (hd 0%nat ((y :: l1) ++ c :: l2))); [congruence|].
    rewrite Hfp; auto.
  - intros m Lm. rewrite E2, E by apply Lm. destruct (Nat.eqb_spec m c); auto.
  - intros m Lm. rewrite F2, F by apply Lm.
    destruct (Nat.eqb_spec m (hd 0%nat (K w))) as [E1|E1]; destruct (Nat.eqb_spec m c); auto. congruence.
  - destruct B as (_ & _ & X & _). destruct B2 as (_ & _ & Y & _). congruence.
Qed.

Definition inupper (s : st) (sp : Z) (c : nat) : bool := sp <=? b_begin (bigs s c).

Lemma inb_spec (x : nat) l : existsb (Nat.eqb x) l = true <-> In x l.
Proof. rewrite existsb_exists. split; [intros (y & Hy & E); apply Nat.eqb_eq in E; subst; auto|intro H; exists x; split; auto; apply Nat.eqb_refl]. Qed.

Lemma move_kids_ok b nw sp : forall rest s K rk kept fuel,
  Links nb s K rk -> K b = kept ++ rest -> b <> nw -> live s b -> live s nw -> rk nw = rk b ->
  (forall c, In c rest -> b_begin (bigs s b) <= b_begin (bigs s c) < b_end (bigs s c) /\ b_end (bigs s c) <= b_end (bigs s b) /\
       (b_end (bigs s c) <= sp \/ sp <= b_begin (bigs s c))) ->
  (length rest < fuel)%nat ->
  exists s' K', move_kids dbg fuel s b nw sp (hd 0%nat rest) = Ok s' /\ Links nb s' K' rk /\ same_data s s' /\
    (forall m, m <> b -> m <> nw -> K' m = K m) /\
    (forall m, b_parent (bigs s' m) = if existsb (Nat.eqb m) (filter (inupper s sp) rest) then nw else b_parent (bigs s m)).
Proof.
  induction rest as [|c rest IH]; intros s K rk kept fuel HL HK Hne Lb Lw Hrk Hc Hf;
    (destruct fuel as [|f]; [cbn [length] in Hf; lia|]).
  - exists s, K. cbn. split; [reflexivity|]. split; auto. split; [apply same_data_refl|]. split; auto.
  - cbn [hd move_kids].
    assert (Hck : In c (K b)) by (rewrite HK; apply in_mid; auto).
    pose proof Hck as Hck'. apply (L_kid _ _ _ _ HL) in Hck'. destruct Hck' as [Lc Pc].
    destruct (Nat.eqb_spec c 0) as [E0|E0]; [exfalso; apply Lc; auto|].
    destruct (Hc c ltac:(simpl; auto)) as (H1 & H2 & H3).
    assert (Hnx : b_next (bigs s c) = hd 0%nat rest).
    { pose proof (L_dll _ _ _ _ HL b) as Hd. rewrite HK in Hd. apply dllx_app in Hd. apply Hd. }
    assert (Hr : (rk nw < rk c)%nat) by (rewrite Hrk, <- Pc; apply (L_rk _ _ _ _ HL); auto; rewrite Pc; apply Lb).
    destruct H3 as [H3|H3].
    + assert (E1 : (b_begin (bigs s b) <=? b_begin (bigs s c)) && (b_end (bigs s c) <=? sp) = true) by lia.
      assert (E2 : (sp <=? b_begin (bigs s c)) && (b_end (bigs s c) <=? b_end (bigs s b)) = false) by lia.
      rewrite E1, E2. cbn [andb bind]. rewrite Hnx.
      destruct (IH s K rk (kept ++ [c]) f) as (s' & K' & A & B & C & D & E); auto.
      * rewrite HK, <- app_assoc. reflexivity.
      * intros x Hx. apply Hc. simpl; auto.
      * cbn [length] in Hf. lia.
      * exists s', K'. split; [exact A|]. split; [exact B|]. split; [exact C|]. split; [exact D|].
        intro m. rewrite E. cbn [filter]. replace (inupper s sp c) with false by (unfold inupper; lia). reflexivity.
    + assert (E1 : (b_begin (bigs s b) <=? b_begin (bigs s c)) && (b_end (bigs s c) <=? sp) = false) by lia.
      assert (E2 : (sp <=? b_begin (bigs s c)) && (b_end (bigs s c) <=? b_end (bigs s b)) = true) by lia.
      rewrite E1, E2. cbn [andb bind].
      destruct (move_one s K rk c b nw kept rest HL HK Hne) as (s1 & s2 & A & B & C & D & E); auto; [apply Lb|].
      rewrite A. cbn [bind]. rewrite B. cbn [bind]. rewrite Hnx.
      assert (Hlive : forall m, live s2 m <-> live s m) by (intro m; unfold live; rewrite (same_data_in_use _ _ _ C); tauto).
      assert (HD : forall m, b_begin (bigs s2 m) = b_begin (bigs s m) /\ b_end (bigs s2 m) = b_end (bigs s m)) by (intro m; destruct C as (H & _); destruct (H m); tauto).
      destruct (IH s2 _ rk kept f E) as (s' & K' & A' & B' & C' & D' & E'); auto.
      * rewrite Kset_other by auto. apply Kset_same.
      * apply Hlive; auto.
      * apply Hlive; auto.
      * intros x Hx. destruct (HD x) as [-> ->]. destruct (HD b) as [-> ->]. apply Hc. simpl; auto.
      * cbn [length] in Hf. lia.
      * exists s', K'. split; [exact A'|]. split; [exact B'|]. split; [eapply same_data_trans; eauto|]. split.
        -- intros m H4 H5. rewrite D' by auto. rewrite Kset_other, Kset_other by auto. reflexivity.
        -- intro m. rewrite E', D. cbn [filter]. replace (inupper s sp c) with true by (unfold inupper; lia).
           cbn [existsb]. assert (Ef : filter (inupper s2 sp) rest = filter (inupper s sp) rest).
           { apply filter_ext. intro x. unfold inupper. destruct (HD x) as [-> _]. reflexivity. }
           rewrite Ef. destruct (Nat.eqb_spec m c); cbn [orb]; [|reflexivity]. destruct (existsb _ _); reflexivity.
Qed.

Lemma before_shrink s s' l : (forall x, In x l -> b_begin (bigs s' x) = b_begin (bigs s x) /\ b_end (bigs s' x) <= b_end (bigs s x)) ->
  before s l -> before s' l.
Proof.
  induction l as [|x l IH]; cbn [before]; auto. intros H [H1 H2]. split.
  - intros y Hy. destruct (H x ltac:(simpl; auto)). destruct (H y ltac:(simpl; auto)). specialize (H1 y Hy). lia.
  - apply IH; auto. intros y Hy; apply H; simpl; auto.
Qed.

Lemma split_ok s K rk b sp :
  Inv nb s K rk -> has_free nb s -> splittable s b sp ->
  exists s' nw K' rk', split nb dbg s b sp = Ok (s', nw) /\ Inv nb s' K' rk' /\
    view s nw = None /\ nw <> 0%nat /\ (forall m, view s' m = split_view s b nw sp m) /\ start s' = start s /\ log s' = log s.
Proof.
  intros HI Hfree (Lb & Hal & Hsp & Hkids).
  pose proof (Inv_Links _ _ _ _ HI) as HL. pose proof (I_geo _ _ _ _ HI _ Lb) as Hgb.
  unfold split. cbn zeta. destruct (find_free_ok _ s Hfree) as (nw & Hff & Hn0 & Hnb & Hnu). rewrite Hff. cbn [bind].
  assert (Hnb' : nw <> b) by (intros ->; destruct Lb; congruence).
  set (p := b_parent (bigs s b)). set (hi := b_end (bigs s b)) in *.
  assert (Hp : node s p) by (apply (I_par _ _ _ _ HI); auto).
  assert (Hpw : p <> nw) by (intro E; destruct Hp as [H|[_ H]]; congruence).
  assert (Hbk : In b (K p)) by (apply (live_kid _ _ _ _ HI); auto).
  assert (Hpb : p <> b).
  { intro E. assert (Hz : b_parent (bigs s b) <> 0%nat) by (fold p; rewrite E; apply Lb). pose proof (I_rk _ _ _ _ HI _ Lb Hz) as R. fold p in R. rewrite E in R. lia. }
  destruct (init_nomemset_ok nb dbg s K rk nw p sp (hi - sp) (b_alloc (bigs s b)) (b_sub (bigs s b)) (b_priv (bigs s b)) (b_subpriv (bigs s b)) (rk b))
    as (s1 & l1 & l2 & Hin & HKp & Hl1 & Hl12 & HL1 & Hat1 & Hatw & Hpx1 & Hst1 & Hlg1); auto; try lia.
  { intro E. apply (I_rk _ _ _ _ HI); auto. }
  { intro E. pose proof (I_in _ _ _ _ HI _ Lb E) as Hi. fold p hi in Hi. lia. }
  { intros E x Hx Hxe. rewrite E in Hbk. destruct (Nat.eq_dec x b) as [->|Hxb]; [lia|].
    pose proof (I_disj _ _ _ _ HI _ _ _ Hx Hbk Hxb) as Hd. unfold disj in Hd. fold hi in Hd.
    pose proof (I_geo _ _ _ _ HI _ (kid_live _ _ _ _ HI _ _ Hx)). lia. }
  replace (sp + (hi - sp)) with hi in * by lia.
  rewrite Hin. cbn [bind].
  set (K1 := Kset K p (l1 ++ nw :: l2)) in *. set (rk1 := fun m => if Nat.eqb m nw then rk b else rk m) in *.
  assert (Hab : attrs_of (bigs s1 b) = attrs_of (bigs s b)) by auto.
  assert (Hu1 : forall m, m <> nw -> (live s1 m <-> live s m)) by (intros m Hm; unfold live; rewrite (attrs_in_use _ _ (Hat1 m Hm)); tauto).
  assert (Lw1 : live s1 nw).
  { split; auto. unfold in_use. rewrite (f_equal a_begin Hatw : b_begin (bigs s1 nw) = sp), (f_equal a_end Hatw : b_end (bigs s1 nw) = hi). lia. }
  assert (Lb1 : live s1 b) by (apply Hu1; auto).
  assert (HK1b : K1 b = K b) by (unfold K1; apply Kset_other; auto).
  assert (Hnwk : forall q, ~ In nw (K q)) by (intros q H; apply (L_kid _ _ _ _ HL) in H; destruct H as [[_ H] _]; congruence).
  assert (Hkc : forall c, In c (K b) -> live s c /\ b_parent (bigs s c) = b /\ c <> nw /\ b_begin (bigs s b) <= b_begin (bigs s c) < b_end (bigs s c) /\ b_end (bigs s c) <= hi /\
       (b_end (bigs s c) <= sp \/ sp <= b_begin (bigs s c))).
  { intros c Hc. pose proof Hc as Hc'. apply (I_kid _ _ _ _ HI) in Hc'. destruct Hc' as [L1 L2]. split; auto. split; auto.
    split; [intros ->; eapply Hnwk; eauto|]. pose proof (I_geo _ _ _ _ HI _ L1). pose proof (I_in _ _ _ _ HI _ L1 ltac:(rewrite L2; apply Lb)) as Hi.
    rewrite L2 in Hi. fold hi in Hi. specialize (Hkids c L1 L2). lia. }
  rewrite (L_first _ _ _ _ HL1) by auto. rewrite HK1b.
  destruct (move_kids_ok b nw sp (K b) s1 K1 rk1 [] (S nb)) as (s2 & K2 & Hmv & HL2 & Hsd2 & HK2 & HP2); auto.
  { unfold rk1. rewrite Nat.eqb_refl. destruct (Nat.eqb_spec b nw); [congruence|reflexivity]. }
  { intros c Hc. destruct (Hkc c Hc) as (A & B & C & D & E & F).
    rewrite (attrs_begin _ _ Hab), (attrs_end _ _ Hab), (attrs_begin _ _ (Hat1 c C)), (attrs_end _ _ (Hat1 c C)). fold hi. auto. }
  { eapply kids_length'; eauto. }
  rewrite Hmv. cbn [bind].
  set (s3 := s_end s2 b sp).
  assert (HD2 : forall m, b_begin (bigs s2 m) = b_begin (bigs s1 m) /\ b_end (bigs s2 m) = b_end (bigs s1 m)) by (intro m; destruct Hsd2 as (H & _); destruct (H m); tauto).
  assert (B3w : b_begin (bigs s3 nw) = sp /\ b_end (bigs s3 nw) = hi).
  { unfold s3. rewrite s_end_begin, s_end_end. destruct (Nat.eqb_spec nw b); [congruence|]. destruct (HD2 nw) as [-> ->].
    split; [exact (f_equal a_begin Hatw)|exact (f_equal a_end Hatw)]. }
  destruct B3w as [-> ->].
  assert (Hpx3 : pidx s3 = pidx s) by (unfold s3; rewrite s_end_pidx; destruct Hsd2 as (_ & -> & _); auto).
  rewrite Hpx3.
  set (s4 := set_pidx s3 _).
  (* pointwise description of the result *)
  assert (A4 : forall m, attrs_of (bigs s4 m) =
     if Nat.eqb m b then mkAttrs (b_begin (bigs s b)) sp p (b_alloc (bigs s b)) (b_sub (bigs s b)) (b_priv (bigs s b)) (b_subpriv (bigs s b))
     else if Nat.eqb m nw then mkAttrs sp hi p (b_alloc (bigs s b)) (b_sub (bigs s b)) (b_priv (bigs s b)) (b_subpriv (bigs s b))
     else if existsb (Nat.eqb m) (K b) && (sp <=? b_begin (bigs s m))
     then mkAttrs (b_begin (bigs s m)) (b_end (bigs s m)) nw (b_alloc (bigs s m)) (b_sub (bigs s m)) (b_priv (bigs s m)) (b_subpriv (bigs s m))
     else attrs_of (bigs s m)).
  { intro m. unfold s4. rewrite set_pidx_bigs. unfold attrs_of at 1. unfold s3. autorewrite with big.
    destruct Hsd2 as (H & _). destruct (H m) as (-> & -> & -> & -> & -> & ->). rewrite HP2.
    assert (Hfe : existsb (Nat.eqb m) (filter (inupper s1 sp) (K b)) = existsb (Nat.eqb m) (K b) && (sp <=? b_begin (bigs s1 m))).
    { apply eq_true_iff_eq. rewrite andb_true_iff, !inb_spec, filter_In. unfold inupper. tauto. }
    rewrite Hfe. destruct (Nat.eqb_spec m b) as [->|Emb].
    - replace (existsb (Nat.eqb b) (K b)) with false.
      2:{ symmetry. apply not_true_is_false. rewrite inb_spec. intro Hx. destruct (Hkc b Hx) as (_ & Hx2 & _). fold p in Hx2. congruence. }
      cbn [andb]. injection Hab. intros -> -> -> -> -> _ ->. reflexivity.
    - destruct (Nat.eqb_spec m nw) as [->|Emw].
      + replace (existsb (Nat.eqb nw) (K b)) with false.
        2:{ symmetry. apply not_true_is_false. rewrite inb_spec. apply Hnwk. }
        cbn [andb]. rewrite <- Hatw. reflexivity.
      + specialize (Hat1 m Emw). injection Hat1. intros -> -> -> -> -> -> ->. 
        destruct (existsb (Nat.eqb m) (K b) && (sp <=? b_begin (bigs s m))); reflexivity. }
  assert (P4 : forall q, pidx s4 q = if (sp <=? PAGE * q) && Nat.eqb (pidx s q) b then nw else pidx s q).
  { intro q. unfold s4. rewrite set_pidx_pidx. destruct (Nat.eqb_spec (pidx s q) b) as [E|E]; [|rewrite !andb_false_r; reflexivity].
    destruct (I_pix _ _ _ _ HI q) as (_ & [Hz|Hs] & _); [rewrite E in Hz; exfalso; apply Lb; auto|]. rewrite E in Hs. unfold spans in Hs. fold hi in Hs.
    rewrite !andb_true_r. replace ((PAGENUM (RUP sp) <=? q) && (q <? PAGENUM (RUP hi))) with (sp <=? PAGE * q); [reflexivity|].
    rewrite !PAGENUM_RUP. unfold PAGE in *. lia. }
  assert (Hst4 : start s4 = start s).
  { unfold s4. rewrite set_pidx_start. unfold s3. rewrite s_end_start. destruct Hsd2 as (_ & _ & -> & _). auto. }
  assert (Hlg4 : log s4 = log s).
  { unfold s4. rewrite set_pidx_log. unfold s3. rewrite s_end_log. destruct Hsd2 as (_ & _ & _ & ->). auto. }
  (* fields *)
  assert (BB : forall m, m <> nw -> b_begin (bigs s4 m) = b_begin (bigs s m)).
  { intros m Hm. change (a_begin (attrs_of (bigs s4 m)) = b_begin (bigs s m)). rewrite A4.
    destruct (Nat.eqb_spec m b) as [->|]; auto. destruct (Nat.eqb_spec m nw); [congruence|]. destruct (_ && _); reflexivity. }
  assert (EE : forall m, m <> nw -> b_end (bigs s4 m) = if Nat.eqb m b then sp else b_end (bigs s m)).
  { intros m Hm. change (a_end (attrs_of (bigs s4 m)) = if Nat.eqb m b then sp else b_end (bigs s m)). rewrite A4.
    destruct (Nat.eqb_spec m b) as [->|]; auto. destruct (Nat.eqb_spec m nw); [congruence|]. destruct (_ && _); reflexivity. }
  assert (BW : b_begin (bigs s4 nw) = sp /\ b_end (bigs s4 nw) = hi /\ b_parent (bigs s4 nw) = p).
  { pose proof (A4 nw) as A. destruct (Nat.eqb_spec nw b); [congruence|]. rewrite Nat.eqb_refl in A.
    split; [exact (f_equal a_begin A)|]. split; [exact (f_equal a_end A)|exact (f_equal a_parent A)]. }
  destruct BW as (BWb & BWe & BWp).
  assert (PP : forall m, m <> nw -> b_parent (bigs s4 m) = if existsb (Nat.eqb m) (K b) && (sp <=? b_begin (bigs s m)) then nw else b_parent (bigs s m)).
  { intros m Hm. change (a_parent (attrs_of (bigs s4 m)) = if existsb (Nat.eqb m) (K b) && (sp <=? b_begin (bigs s m)) then nw else b_parent (bigs s m)). rewrite A4.
    destruct (Nat.eqb_spec m b) as [->|].
    - replace (existsb (Nat.eqb b) (K b)) with false; auto. symmetry. apply not_true_is_false. rewrite inb_spec. intro Hx. destruct (Hkc b Hx) as (_ & Hx2 & _). fold p in Hx2. congruence.
    - destruct (Nat.eqb_spec m nw); [congruence|]. destruct (_ && _); reflexivity. }
  assert (L4 : forall m, live s4 m <-> (m = nw \/ live s m)).
  { intro m. unfold live, in_use. destruct (Nat.eq_dec m nw) as [->|Hm].
    - rewrite BWb, BWe. split; [tauto|]. intros _. split; auto. lia.
    - rewrite BB, EE by auto. destruct (Nat.eqb_spec m b) as [->|].
      + destruct Lb as [Lb1' Lb2']. unfold in_use in Lb2'. fold hi in Lb2'. split; [intros _; right; split; auto|intros _; split; auto; lia].
      + tauto. }
  assert (HL4 : Links nb s4 K2 rk1).
  { eapply links_same; [exact HL2| | | | | |].
    - intro m. unfold s4. rewrite set_pidx_bigs. unfold s3, in_use. rewrite s_end_begin, s_end_end.
      destruct (Nat.eqb_spec m b) as [->|]; auto. destruct (HD2 b) as [-> ->]. rewrite (attrs_begin _ _ Hab), (attrs_end _ _ Hab). fold hi. lia.
    - intro m. unfold s4, s3. autorewrite with big. reflexivity.
    - intro m. unfold s4, s3. autorewrite with big. reflexivity.
    - intro m. unfold s4, s3. autorewrite with big. reflexivity.
    - intro m. unfold s4, s3. autorewrite with big. reflexivity.
    - unfold s4, s3. autorewrite with big. reflexivity. }
  assert (Hmoved : forall m, existsb (Nat.eqb m) (K b) && (sp <=? b_begin (bigs s m)) = true -> live s m /\ b_parent (bigs s m) = b /\ m <> nw /\ sp <= b_begin (bigs s m) /\ b_end (bigs s m) <= hi).
  { intros m H. apply andb_true_iff in H. destruct H as [H1 H2]. apply inb_spec in H1. destruct (Hkc m H1) as (A & B & C & D & E & F). split; [exact A|]. split; [exact B|]. split; [exact C|]. lia. }
  assert (HG : Geo s4 K2).
  { constructor.
    - intros m Hm. apply L4 in Hm. destruct Hm as [->|Hm]; [rewrite BWb, BWe; lia|].
      assert (m <> nw) by (intros ->; destruct Hm; congruence). rewrite BB, EE by auto. pose proof (I_geo _ _ _ _ HI _ Hm).
      destruct (Nat.eqb_spec m b) as [->|]; lia.
    - intros m Hm. apply L4 in Hm. destruct Hm as [->|Hm].
      + rewrite BWp, BWb, BWe. intro E. rewrite BB, EE by auto. destruct (Nat.eqb_spec p b); [congruence|].
        pose proof (I_in _ _ _ _ HI _ Lb E) as Hi. fold p hi in Hi. lia.
      + assert (m <> nw) by (intros ->; destruct Hm; congruence). rewrite PP by auto. rewrite (BB m), (EE m) by auto.
        destruct (existsb (Nat.eqb m) (K b) && (sp <=? b_begin (bigs s m))) eqn:Em.
        * intros _. rewrite BWb, BWe. destruct (Hmoved m Em) as (A & B & C & D & E).
          destruct (Nat.eqb_spec m b) as [->|]; [lia|]. lia.
        * intro E. assert (Hpm : b_parent (bigs s m) <> nw).
          { intro E2. destruct (I_par _ _ _ _ HI _ Hm) as [H3|[_ H3]]; rewrite E2 in H3; congruence. }
          rewrite BB, EE by auto. pose proof (I_in _ _ _ _ HI _ Hm E) as Hi.
          destruct (Nat.eqb_spec (b_parent (bigs s m)) b) as [E2|E2].
          -- assert (Hmk : In m (K b)) by (apply (I_kid _ _ _ _ HI); auto). destruct (Hkc m Hmk) as (A & B & C & D & F & G).
             apply inb_spec in Hmk. rewrite Hmk in Em. cbn [andb] in Em. rewrite E2 in *.
             destruct (Nat.eqb_spec m b) as [->|]; lia.
          -- destruct (Nat.eqb_spec m b) as [->|]; [fold hi in Hi; lia|lia].
    - (* siblings stay disjoint *)
      assert (Hsub : forall m, live s m -> m <> nw -> b_begin (bigs s4 m) = b_begin (bigs s m) /\ b_end (bigs s4 m) <= b_end (bigs s m) /\ (m = b -> b_end (bigs s4 m) = sp)).
      { intros m Lm Hm. rewrite BB, EE by auto. destruct (Nat.eqb_spec m b) as [->|]; fold hi; repeat split; try lia; try congruence. }
      assert (Hpar : forall m q, live s m -> m <> nw -> b_parent (bigs s4 m) = q -> q <> nw -> b_parent (bigs s m) = q).
      { intros m q Lm Hm H1 H2. rewrite PP in H1 by auto. destruct (_ && _); congruence. }
      assert (Hnw_sib : forall m, live s m -> m <> nw -> b_parent (bigs s4 m) = p -> disj s4 nw m).
      { intros m Lm Hm Hpm. apply Hpar in Hpm; auto. unfold disj. rewrite BWb, BWe. destruct (Hsub m Lm Hm) as (S1 & S2 & S3).
        destruct (Nat.eq_dec m b) as [->|Emb]; [right; rewrite S3; auto; lia|].
        assert (Hmk : In m (K p)) by (apply (I_kid _ _ _ _ HI); auto).
        pose proof (I_disj _ _ _ _ HI _ _ _ Hmk Hbk Emb) as Hd. unfold disj in Hd. fold hi in Hd. lia. }
      intros q a c Ha Hc Hac. apply (L_kid _ _ _ _ HL4) in Ha. apply (L_kid _ _ _ _ HL4) in Hc.
      destruct Ha as [La Pa], Hc as [Lc Pc]. apply L4 in La. apply L4 in Lc.
      destruct (Nat.eq_dec a nw) as [->|Ea].
      { destruct Lc as [->|Lc]; [congruence|]. apply Hnw_sib; auto. congruence. }
      destruct (Nat.eq_dec c nw) as [->|Ec].
      { destruct La as [->|La]; [congruence|]. assert (Hd : disj s4 nw a) by (apply Hnw_sib; auto; congruence). unfold disj in *. tauto. }
      destruct La as [->|La]; [congruence|]. destruct Lc as [->|Lc]; [congruence|].
      destruct (Hsub a La Ea) as (S1 & S2 & _). destruct (Hsub c Lc Ec) as (T1 & T2 & _).
      assert (Hd : disj s a c).
      { rewrite PP in Pa, Pc by auto.
        assert (Hnp : forall m, live s m -> b_parent (bigs s m) <> nw).
        { intros m Lm E2. destruct (I_par _ _ _ _ HI _ Lm) as [H3|[_ H3]]; rewrite E2 in H3; congruence. }
        pose proof (Hnp a La). pose proof (Hnp c Lc).
        destruct (existsb (Nat.eqb a) (K b) && (sp <=? b_begin (bigs s a))) eqn:E1; destruct (existsb (Nat.eqb c) (K b) && (sp <=? b_begin (bigs s c))) eqn:E2; try congruence.
        - destruct (Hmoved a E1) as (_ & Q1 & _). destruct (Hmoved c E2) as (_ & Q2 & _).
          apply (I_disj _ _ _ _ HI b); auto; apply (I_kid _ _ _ _ HI); auto.
        - apply (I_disj _ _ _ _ HI q); auto; apply (I_kid _ _ _ _ HI); auto. }
      unfold disj in *. lia.
    - (* address order of the top-level list *)
      rewrite HK2; auto; [|intro E; apply Lb; auto].
      assert (Hsh : forall l, incl l (K 0%nat) -> before s l -> before s4 l).
      { intros l Hl. apply before_shrink. intros x Hx. apply Hl in Hx. assert (Lx := kid_live _ _ _ _ HI _ _ Hx).
        assert (x <> nw) by (intros ->; eapply Hnwk; eauto). rewrite BB, EE by auto. split; auto. destruct (Nat.eqb_spec x b) as [->|]; fold hi; lia. }
      unfold K1. destruct (Nat.eq_dec p 0) as [E|E].
      + unfold K1. rewrite E, Kset_same. rewrite E in HKp, Hbk. destruct (Hl12 E) as [Hl1e Hl2e].
        pose proof (I_before _ _ _ _ HI) as Hb. rewrite HKp in Hb. apply before_app in Hb. destruct Hb as (Hb1 & Hb2 & Hb3).
        assert (Hi1 : incl l1 (K 0%nat)) by (rewrite HKp; intros x Hx; apply in_or_app; auto).
        assert (Hi2 : incl l2 (K 0%nat)) by (rewrite HKp; intros x Hx; apply in_or_app; auto).
        assert (Hnw1 : forall x, In x (K 0%nat) -> x <> nw) by (intros x Hx ->; eapply Hnwk; eauto).
        apply before_app. cbn [before]. split; [apply Hsh; auto|]. split; [split; [|apply Hsh; auto]|].
        * intros y Hy. rewrite BWe, BB by auto. pose proof (Hi2 y Hy) as Hyk. specialize (Hl2e y Hy).
          assert (y <> b) by (intros ->; fold hi in Hl2e; lia).
          pose proof (I_disj _ _ _ _ HI _ _ _ Hyk Hbk ltac:(auto)) as Hd. unfold disj in Hd. fold hi in Hd.
          lia.
        * intros x y Hx [<-|Hy].
          -- rewrite BWb, EE by auto. pose proof (Hi1 x Hx) as Hxk. specialize (Hl1e x Hx).
             destruct (Nat.eqb_spec x b) as [->|Exb]; [lia|].
             pose proof (I_disj _ _ _ _ HI _ _ _ Hxk Hbk Exb) as Hd. unfold disj in Hd. fold hi in Hd.
             pose proof (I_geo _ _ _ _ HI _ (kid_live _ _ _ _ HI _ _ Hxk)). lia.
          -- rewrite EE, BB by auto. specialize (Hb3 x y Hx Hy). destruct (Nat.eqb_spec x b) as [->|]; [fold hi in Hb3; lia|auto].
      + rewrite Kset_other by auto. apply Hsh; [apply incl_refl|]. apply (I_before _ _ _ _ HI).
    - intros m Hm. rewrite HK2 in Hm; auto; [|intro E; apply Lb; auto]. unfold K1 in Hm.
      destruct (Nat.eq_dec p 0) as [E|E].
      + rewrite E, Kset_same in Hm. apply in_mid in Hm. rewrite E in HKp, Hbk. pose proof (I_align _ _ _ _ HI _ Hbk) as Hab'. fold hi in Hab'.
        destruct Hm as [->|Hm]; [rewrite BWb, BWe; tauto|]. rewrite <- HKp in Hm.
        assert (m <> nw) by (intros ->; eapply Hnwk; eauto). rewrite BB, EE by auto. pose proof (I_align _ _ _ _ HI _ Hm).
        destruct (Nat.eqb_spec m b); tauto.
      + rewrite Kset_other in Hm by auto. assert (m <> nw) by (intros ->; eapply Hnwk; eauto). rewrite BB, EE by auto.
        pose proof (I_align _ _ _ _ HI _ Hm). destruct (Nat.eqb_spec m b) as [->|]; [|auto].
        apply (kid_par _ _ _ _ HI) in Hm. fold p in Hm. congruence.
    - intro q. rewrite P4. destruct (I_pix _ _ _ _ HI q) as (N1 & N2 & N3).
      assert (Hpq : pidx s q <> nw) by (intro E; destruct N1 as [H|[_ H]]; rewrite E in H; congruence).
      destruct (Nat.eqb_spec (pidx s q) b) as [E|E].
      + rewrite E in *. destruct N2 as [N2|N2]; [exfalso; apply Lb; auto|]. unfold spans in N2. fold hi in N2.
        destruct (Z.leb_spec sp (PAGE * q)) as [Hq|Hq]; cbn [andb].
        * split; [right; apply L4; auto|]. split; [right; unfold spans; rewrite BWb, BWe; lia|].
          intros c Hc Hs. apply (L_kid _ _ _ _ HL4) in Hc. destruct Hc as [Lc Pc]. apply L4 in Lc.
          destruct (Nat.eq_dec c nw) as [->|Ec]; [congruence|]. destruct Lc as [->|Lc]; [congruence|].
          rewrite PP in Pc by auto. destruct (existsb (Nat.eqb c) (K b) && (sp <=? b_begin (bigs s c))) eqn:Em.
          -- destruct (Hmoved c Em) as (_ & Q1 & _ & Q2 & _). apply (N3 c); [apply (I_kid _ _ _ _ HI); auto|].
             unfold spans in *. rewrite BB, EE in Hs by auto. destruct (Nat.eqb_spec c b) as [->|]; fold hi; lia.
          -- destruct (I_par _ _ _ _ HI _ Lc) as [H3|[_ H3]]; rewrite Pc in H3; congruence.
        * split; [right; apply L4; auto|]. split.
          { right. unfold spans. rewrite BB, EE by auto. rewrite Nat.eqb_refl. unfold PAGE in *. lia. }
          intros c Hc Hs. apply (L_kid _ _ _ _ HL4) in Hc. destruct Hc as [Lc Pc]. apply L4 in Lc.
          destruct (Nat.eq_dec c nw) as [->|Ec]; [congruence|]. destruct Lc as [->|Lc]; [congruence|].
          rewrite PP in Pc by auto. destruct (existsb (Nat.eqb c) (K b) && (sp <=? b_begin (bigs s c))) eqn:Em; [congruence|].
          apply (N3 c); [apply (I_kid _ _ _ _ HI); auto|]. unfold spans in *. rewrite BB, EE in Hs by auto.
          destruct (Nat.eqb_spec c b) as [->|]; fold hi; lia.
      + rewrite andb_false_r. split; [destruct N1 as [N1|N1]; [left; auto|right; apply L4; auto]|]. split.
        * destruct N2 as [N2|N2]; [left; auto|right]. unfold spans in *. rewrite BB, EE by auto.
          destruct (Nat.eqb_spec (pidx s q) b); [congruence|auto].
        * intros c Hc Hs. apply (L_kid _ _ _ _ HL4) in Hc. destruct Hc as [Lc Pc]. apply L4 in Lc.
          destruct (Nat.eq_dec c nw) as [->|Ec].
          { rewrite BWp in Pc. apply (N3 b); [rewrite <- Pc; auto|]. unfold spans in *. rewrite BWb, BWe in Hs. fold hi. lia. }
          destruct Lc as [->|Lc]; [congruence|].
          rewrite PP in Pc by auto. destruct (existsb (Nat.eqb c) (K b) && (sp <=? b_begin (bigs s c))) eqn:Em; [congruence|].
          apply (N3 c); [apply (I_kid _ _ _ _ HI); auto|]. unfold spans in *. rewrite BB, EE in Hs by auto.
          destruct (Nat.eqb_spec c b) as [->|]; fold hi; lia. }
  assert (HI4 : Inv nb s4 K2 rk1) by (apply mkInv; auto).
  rewrite asrt_true by (eapply sanity_ok; [exact HI4|apply L4; auto]). cbn [bind].
  rewrite asrt_true by (eapply sanity_ok; [exact HI4|apply L4; auto]). cbn [bind].
  exists s4, nw, K2, rk1. split; [reflexivity|]. split; [exact HI4|].
  split; [unfold view; rewrite Hnu, andb_false_r; reflexivity|]. split; [auto|]. split; [|auto].
  intro m. unfold split_view. cbn [attrs_of a_begin a_end a_parent a_alloc a_sub a_priv a_subpriv].
  destruct (Nat.eqb_spec m b) as [Emb|Emb].
  { rewrite live_view by (apply L4; rewrite Emb; auto). rewrite A4. rewrite Emb, Nat.eqb_refl. reflexivity. }
  destruct (Nat.eqb_spec m nw) as [Emw|Emw].
  { rewrite live_view by (apply L4; auto). rewrite A4. rewrite Emw, Nat.eqb_refl. destruct (Nat.eqb_spec nw b); [congruence|reflexivity]. }
  pose proof (A4 m) as A4m. destruct (Nat.eqb_spec m b); [congruence|]. destruct (Nat.eqb_spec m nw); [congruence|].
  destruct (live_dec s m) as [Lm|Lm].
  - rewrite (live_view s4) by (apply L4; auto). rewrite (live_view s) by auto. rewrite A4m. f_equal.
    assert (He : existsb (Nat.eqb m) (K b) = Nat.eqb (a_parent (attrs_of (bigs s m))) b).
    { apply eq_true_iff_eq. rewrite inb_spec, Nat.eqb_eq, (I_kid _ _ _ _ HI). cbn. tauto. }
    rewrite He. reflexivity.
  - assert (H1 : view s m = None) by (destruct (view s m) eqn:Ev; auto; exfalso; apply Lm; apply view_live; congruence).
    assert (H2 : view s4 m = None) by (destruct (view s4 m) eqn:Ev; auto; exfalso; assert (Hx : live s4 m) by (apply view_live; congruence); apply L4 in Hx; tauto).
    rewrite H1, H2. reflexivity.
Qed.
End Split.
