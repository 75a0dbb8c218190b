(* Range deletion, neighbour search and common parents. *)
From Verif Require Import Base Big_model Big_set Big_spec Big_inv Big_lookup Big_links Big_field Big_create Big_delete.

Lemma anc_of_root s a x : anc s a x -> b_parent (bigs s x) = 0%nat -> a = x.
Proof. intros H P. inversion H; auto. congruence. Qed.

Section Range.
Variables (nb : nat) (biggest : Z) (dbg : bool).

(* ---- neighbour search *)
Section Search.
Variables (s : st) (K : nat -> list nat) (rk : nat -> nat).
Hypothesis HI : Inv nb s K rk.

Lemma lowest_ge_correct a :
  exists r, toplevel_lowest_ge nb dbg s a = Ok r /\
   ((r = 0%nat /\ forall x, toplevel s x -> b_end (bigs s x) <= a) \/
    (toplevel s r /\ a < b_end (bigs s r) /\ forall x, toplevel s x -> a < b_end (bigs s x) -> b_begin (bigs s r) <= b_begin (bigs s x))).
Proof.
  destruct (lowest_ge_ok nb dbg s (K 0%nat)) with (a := a) as (la & lb & El & Ha & Hb & Hr).
  - apply (L_dll _ _ _ _ (Inv_Links _ _ _ _ HI)).
  - apply (I_before _ _ _ _ HI).
  - apply (I_nodup _ _ _ _ HI).
  - intros x Hx. pose proof (kid_live _ _ _ _ HI _ _ Hx) as L. split; [apply L|]. pose proof (I_geo _ _ _ _ HI _ L). lia.
  - eapply kids_length'; eauto.
  - apply (I_start _ _ _ _ HI).
  - assert (Htop : forall x, toplevel s x <-> In x (la ++ lb)) by (intro x; rewrite <- El; symmetry; apply (I_kid _ _ _ _ HI)).
    exists (hd 0%nat lb). split; [exact Hr|]. destruct lb as [|y lb].
    + left. split; auto. intros x Hx. apply Htop in Hx. rewrite app_nil_r in Hx. specialize (Ha x Hx). lia.
    + right. cbn [hd]. split; [apply Htop; apply in_mid; auto|]. split; [specialize (Hb y ltac:(simpl; auto)); lia|].
      intros x Hx Hax. apply Htop in Hx. apply in_app_or in Hx. destruct Hx as [Hx|[<-|Hx]]; [specialize (Ha x Hx); lia|lia|].
      pose proof (I_before _ _ _ _ HI) as Hbf. rewrite El in Hbf. apply before_app in Hbf. destruct Hbf as (_ & (H1 & _) & _).
      specialize (H1 x Hx). assert (L : toplevel s y) by (apply Htop; apply in_mid; auto). destruct L as [L _]. pose proof (I_geo _ _ _ _ HI _ L). lia.
Qed.

Lemma highest_lt_correct a :
  exists r, toplevel_highest_lt nb dbg s a = Ok r /\
   ((r = 0%nat /\ forall x, toplevel s x -> a <= b_begin (bigs s x)) \/
    (toplevel s r /\ b_begin (bigs s r) < a /\ forall x, toplevel s x -> b_begin (bigs s x) < a -> x = r \/ b_end (bigs s x) <= b_begin (bigs s r))).
Proof.
  destruct (highest_lt_ok nb dbg s (K 0%nat)) with (a := a) as (la & lb & El & Ha & Hb & Hr).
  - apply (L_dll _ _ _ _ (Inv_Links _ _ _ _ HI)).
  - apply (I_before _ _ _ _ HI).
  - apply (I_nodup _ _ _ _ HI).
  - intros x Hx. pose proof (kid_live _ _ _ _ HI _ _ Hx) as L. split; [apply L|]. pose proof (I_geo _ _ _ _ HI _ L). lia.
  - eapply kids_length'; eauto.
  - apply (I_start _ _ _ _ HI).
  - assert (Htop : forall x, toplevel s x <-> In x (la ++ lb)) by (intro x; rewrite <- El; symmetry; apply (I_kid _ _ _ _ HI)).
    exists (last la 0%nat). split; [exact Hr|]. destruct la as [|y la] using rev_ind.
    + left. split; auto. intros x Hx. apply Htop in Hx. cbn [app] in Hx. specialize (Hb x Hx). lia.
    + clear IHla. right. rewrite last_last. split; [apply Htop; apply in_or_app; left; apply in_or_app; simpl; auto|].
      split; [apply Ha; apply in_or_app; simpl; auto|].
      intros x Hx Hax. apply Htop in Hx. apply in_app_or in Hx. destruct Hx as [Hx|Hx]; [|specialize (Hb x Hx); lia].
      apply in_app_or in Hx. destruct Hx as [Hx|[<-|[]]]; [right|left; auto].
      pose proof (I_before _ _ _ _ HI) as Hbf. rewrite El in Hbf. apply before_app in Hbf. destruct Hbf as (Hbf & _).
      apply before_app in Hbf. destruct Hbf as (_ & _ & H3). apply H3; simpl; auto.
Qed.

Lemma toplevel_disj x y : toplevel s x -> toplevel s y -> x <> y -> disj s x y.
Proof. intros Hx Hy H. apply (I_disj _ _ _ _ HI 0%nat); auto; apply (I_kid _ _ _ _ HI); auto. Qed.

(* the highest mapping lying wholly below a *)
Lemma mapping_below_correct a :
  exists r, mapping_below nb dbg s a = Ok r /\
   ((r = 0%nat /\ forall x, toplevel s x -> a < b_end (bigs s x)) \/
    (toplevel s r /\ b_end (bigs s r) <= a /\ forall x, toplevel s x -> b_end (bigs s x) <= a -> x = r \/ b_end (bigs s x) <= b_begin (bigs s r))).
Proof.
  unfold mapping_below. destruct (highest_lt_correct a) as (f & Hf & H). rewrite Hf. cbn [bind].
  destruct H as [[-> H]|(H1 & H2 & H3)].
  - exists 0%nat. cbn. split; auto. left. split; auto. intros x Hx. specialize (H x Hx). destruct Hx as [Lx _]. pose proof (I_geo _ _ _ _ HI _ Lx). lia.
  - destruct (Nat.eqb_spec f 0) as [E|E]; [exfalso; subst; destruct H1 as [[H1 _] _]; auto|].
    pose proof (I_geo _ _ _ _ HI _ (proj1 H1)) as Hg.
    destruct (Z.ltb_spec a (b_end (bigs s f))) as [Hlt|Hge].
    + destruct (highest_lt_correct (b_begin (bigs s f))) as (g & Hgg & H4). exists g. split; auto.
      destruct H4 as [[-> H4]|(H4 & H5 & H6)].
      * left. split; auto. intros x Hx. destruct (Z.le_gt_cases (b_end (bigs s x)) a) as [Hc|]; [|lia]. exfalso.
        pose proof (I_geo _ _ _ _ HI _ (proj1 Hx)) as Hgx. specialize (H4 x Hx). destruct (H3 x Hx ltac:(lia)) as [->|]; lia.
      * right. split; auto. pose proof (I_geo _ _ _ _ HI _ (proj1 H4)) as Hg4. split.
        -- destruct (H3 g H4 ltac:(lia)) as [->|]; lia.
        -- intros x Hx Hxa. pose proof (I_geo _ _ _ _ HI _ (proj1 Hx)) as Hgx. apply H6; auto. destruct (H3 x Hx ltac:(lia)) as [->|]; lia.
    + exists f. split; auto. right. split; auto. split; [lia|]. intros x Hx Hxa. pose proof (I_geo _ _ _ _ HI _ (proj1 Hx)). apply H3; auto. lia.
Qed.

(* the lowest mapping reaching above a, if something begins below a *)
Lemma mapping_at_or_above_partial a :
  exists r, mapping_at_or_above nb dbg s a = Ok r /\
   ((forall x, toplevel s x -> a <= b_begin (bigs s x)) /\ r = 0%nat \/
    (exists x, toplevel s x /\ b_begin (bigs s x) < a) /\
    ((r = 0%nat /\ forall x, toplevel s x -> b_end (bigs s x) <= a) \/
     (toplevel s r /\ a < b_end (bigs s r) /\ forall x, toplevel s x -> a < b_end (bigs s x) -> b_begin (bigs s r) <= b_begin (bigs s x)))).
Proof.
  unfold mapping_at_or_above. destruct (highest_lt_correct a) as (f & Hf & H). rewrite Hf. cbn [bind].
  destruct H as [[-> H]|(H1 & H2 & H3)].
  - exists 0%nat. cbn. split; auto.
  - destruct (Nat.eqb_spec f 0) as [E|E]; [exfalso; subst; destruct H1 as [[H1 _] _]; auto|].
    destruct (Z.leb_spec (b_end (bigs s f)) a) as [Hle|Hgt].
    + destruct (lowest_ge_correct a) as (g & Hg & H4). exists g. split; auto. right. split; [exists f; auto|exact H4].
    + exists f. split; auto. right. split; [exists f; auto|]. right. split; auto. split; auto.
      intros x Hx Hax. destruct (Nat.eq_dec x f) as [->|Exf]; [lia|].
      pose proof (I_geo _ _ _ _ HI _ (proj1 Hx)). destruct (Z.lt_ge_cases (b_begin (bigs s x)) a) as [Hc|]; [|lia].
      destruct (H3 x Hx Hc); [congruence|lia].
Qed.
End Search.

(* ---- deleting everything that overlaps a range *)
Lemma skip_zero_ok s lim : forall fuel q, q <= lim -> (Z.to_nat (lim - q) < fuel)%nat ->
  exists r, skip_zero fuel s q lim = Ok r /\ q <= r <= lim /\ (forall k, q <= k < r -> pidx s k = 0%nat) /\ (r < lim -> pidx s r <> 0%nat).
Proof.
  induction fuel as [|f IH]; intros q Hq Hf; [lia|]. cbn [skip_zero].
  destruct (Nat.eqb_spec (pidx s q) 0) as [E|E]; cbn [andb].
  - destruct (Z.eqb_spec q lim) as [El|El]; cbn [negb].
    + exists q. repeat split; try lia.
    + destruct (IH (q + 1)) as (r & A & B & C & D); [lia|lia|]. exists r. split; auto. split; [lia|]. split; auto.
      intros k Hk. destruct (Z.eq_dec k q) as [->|]; auto. apply C. lia.
  - exists q. repeat split; try lia.
Qed.

Lemma gone_live s s' D m : gone s s' D -> (live s' m <-> live s m /\ ~ In m D).
Proof.
  intros [_ Hv _ _]. rewrite !view_live, Hv. destruct (existsb (Nat.eqb m) D) eqn:E.
  - apply existsb_exists in E. destruct E as (x & Hx & Ex). apply Nat.eqb_eq in Ex. subst x. tauto.
  - split; [|tauto]. intro H. split; auto. intro Hin. apply not_true_iff_false in E. apply E. apply existsb_exists. exists m. rewrite Nat.eqb_refl. auto.
Qed.
Lemma gone_attrs s s' D m : gone s s' D -> live s' m -> attrs_of (bigs s' m) = attrs_of (bigs s m).
Proof.
  intros HG Hm. pose proof (proj1 (gone_live _ _ _ _ HG) Hm) as [L1 L2]. pose proof (go_view _ _ _ HG m) as Hv.
  rewrite (live_view _ _ Hm), (live_view _ _ L1) in Hv. destruct (existsb _ _); [discriminate|]. congruence.
Qed.
Lemma gone_nil s : gone s s [].
Proof. constructor; auto; [constructor|]. cbn. rewrite app_nil_r. reflexivity. Qed.
Lemma gone_app s s1 s2 D1 D2 : gone s s1 D1 -> gone s1 s2 D2 -> (forall x, In x D2 -> live s1 x) -> gone s s2 (D1 ++ D2).
Proof.
  intros G1 G2 HL. constructor.
  - apply NoDup_app; [apply G1|apply G2|]. intros x Hx Hx2. apply HL in Hx2. apply (gone_live _ _ _ _ G1) in Hx2. tauto.
  - intro m. rewrite (go_view _ _ _ G2), (go_view _ _ _ G1), existsb_app. destruct (existsb (Nat.eqb m) D1), (existsb (Nat.eqb m) D2); reflexivity.
  - rewrite (go_log _ _ _ G2), (go_log _ _ _ G1), flat_map_app, app_assoc. f_equal. apply flat_map_ext_in.
    intros x Hx. rewrite (gone_attrs _ _ _ _ G1); auto.
  - rewrite (go_start _ _ _ G2). apply (go_start _ _ _ G1).
Qed.

(* the allocations that lie under a top-level mapping meeting [lo,hi) *)
Lemma root_unique s K rk r1 r2 x : Inv nb s K rk -> live s x -> toplevel s r1 -> toplevel s r2 -> anc s r1 x -> anc s r2 x -> r1 = r2.
Proof.
  intros HI Lx [L1 P1] [L2 P2] H1 H2. revert r2 L2 P2 H2. induction H1 as [|n Hp Ha IH]; intros r2 L2 P2 H2.
  - inversion H2; subst; auto. congruence.
  - inversion H2; subst; [congruence|]. apply IH; auto. destruct (I_par _ _ _ _ HI _ Lx); [congruence|auto].
Qed.

Lemma anc_gone s s' D a x : gone s s' D -> live s' x -> (forall y, live s' y -> b_parent (bigs s' y) <> 0%nat -> live s' (b_parent (bigs s' y))) ->
  (anc s' a x <-> anc s a x).
Proof.
  intros HG Lx Hcl. split; intro H.
  - induction H as [|n Hp Ha IH]; [constructor|].
    pose proof (attrs_parent _ _ (gone_attrs _ _ _ _ HG Lx)) as E. rewrite E in *. apply anc_up; auto. apply IH. rewrite <- E. apply Hcl; auto. congruence.
  - induction H as [|n Hp Ha IH]; [constructor|].
    pose proof (attrs_parent _ _ (gone_attrs _ _ _ _ HG Lx)) as E. apply anc_up; [congruence|]. rewrite E. apply IH. rewrite <- E. apply Hcl; auto. congruence.
Qed.

Lemma delete_range_ok lim : forall fuel s K rk upto,
  Inv nb s K rk -> 0 <= upto -> (upto mod PAGE = 0 \/ lim mod PAGE = 0) ->
  (Z.to_nat (lim - upto) < fuel)%nat ->
  (forall r, toplevel s r -> meets s r upto lim -> b_end (bigs s r) - b_begin (bigs s r) <= biggest /\ r <> start s) ->
  exists s' K' D, delete_range nb biggest dbg fuel s upto lim = Ok s' /\ Inv nb s' K' rk /\ gone s s' D /\
    (forall x, In x D <-> doomed s upto lim x).
Proof.
  induction fuel as [|f IH]; intros s K rk upto HI Hup Hal Hf Hok; [lia|]. cbn [delete_range].
  destruct (Z.leb_spec lim upto) as [Hle|Hlt].
  { exists s, K, []. split; auto. split; auto. split; [apply gone_nil|]. intro x. split; [intros []|]. intros (_ & r & _ & (a & Ha & _) & _). lia. }
  destruct (skip_zero_ok s (PAGENUM upto + (PAGENUM (RUP lim) - PAGENUM upto)) (S (Z.to_nat (PAGENUM (RUP lim) - PAGENUM upto))) (PAGENUM upto))
    as (q & Hq & Hqr & Hz & Hnz).
  { unfold PAGENUM, RUP, PAGE. lia. }
  { lia. }
  rewrite Hq. cbn [bind].
  replace (PAGENUM upto + (PAGENUM (RUP lim) - PAGENUM upto)) with (PAGENUM (RUP lim)) in * by lia.
  set (u1 := upto + PAGE * (q - PAGENUM upto)).
  assert (Hu1 : PAGENUM u1 = q) by (unfold u1, PAGENUM, PAGE; lia).
  assert (Hcov : forall x a, toplevel s x -> upto <= a < lim -> covers s x a -> q <= PAGENUM a < PAGENUM (RUP lim)).
  { intros x a [Lx Px] Ha Hc. assert (Hp : pidx s (PAGENUM a) <> 0%nat) by (intro E; eapply pix_zero_none; eauto).
    split; [|unfold PAGENUM, RUP, PAGE in *; lia].
    destruct (Z.le_gt_cases q (PAGENUM a)); auto. exfalso. apply Hp. apply Hz. unfold PAGENUM, PAGE in *. lia. }
  destruct (Z.leb_spec lim u1) as [Hdone|Hmore].
  { exists s, K, []. split; auto. split; auto. split; [apply gone_nil|]. intro x. split; [intros []|]. intros (_ & r & Hr & (a & Ha & Hc) & _).
    specialize (Hcov r a Hr Ha Hc). unfold u1, PAGENUM, RUP, PAGE in *. lia. }
  rewrite Hu1. assert (Hqlt : q < PAGENUM (RUP lim)) by (unfold u1, PAGENUM, RUP, PAGE in *; lia).
  specialize (Hnz Hqlt). destruct (Nat.eqb_spec (pidx s q) 0) as [E|_]; [congruence|].
  assert (Hpc := pix_covers _ _ _ _ HI (PAGE * q)).
  replace (PAGENUM (PAGE * q)) with q in Hpc by (unfold PAGENUM, PAGE; lia). destruct (Hpc Hnz) as [Ln Cn].
  pose proof (I_geo _ _ _ _ HI _ Ln) as Hgn.
  destruct (Z.eqb_spec (b_begin (bigs s (pidx s q))) 0) as [E|_]; [lia|]. destruct (Z.eqb_spec (b_end (bigs s (pidx s q))) 0) as [E|_]; [lia|].
  cbn [orb]. destruct (climb_ok _ _ _ _ HI (pidx s q) Ln) as (r & Hcl & Har & Lr & Pr). rewrite Hcl. cbn [bind].
  assert (Hsr : spans s r q).
  { destruct (I_pix _ _ _ _ HI q) as (_ & [Hz0|Hs] & _); [congruence|]. eapply anc_spans; eauto. }
  unfold spans in Hsr. set (e := b_end (bigs s r)).
  assert (Hu1q : PAGE * q <= u1 < PAGE * q + PAGE) by (rewrite <- Hu1; apply pagenum_in).
  destruct (Z.leb_spec e u1) as [Hbad|Hgood]; [unfold e in *; lia|].
  assert (Hr : toplevel s r) by (split; auto).
  assert (Hm : meets s r upto lim).
  { exists u1. split; [unfold u1, PAGE in *; lia|]. unfold covers. fold e. lia. }
  destruct (Hok r Hr Hm) as [Hsz Hst].
  destruct (bigalloc_del_ok nb biggest dbg s K rk r HI Lr) as (s1 & K1 & D1 & Hd1 & HI1 & Hsub & Hg1); auto.
  { intro Ha. apply Hst. pose proof (I_start _ _ _ _ HI) as Hss. apply (I_kid _ _ _ _ HI) in Hss. destruct Hss as [Ls Ps].
    eapply anc_of_root; eauto. }
  rewrite Hd1. cbn [bind].
  assert (Hcl1 : forall y, live s1 y -> b_parent (bigs s1 y) <> 0%nat -> live s1 (b_parent (bigs s1 y))).
  { intros y Ly Hy. destruct (I_par _ _ _ _ HI1 _ Ly); [congruence|auto]. }
  assert (Htop1 : forall x, toplevel s1 x <-> toplevel s x /\ x <> r).
  { intro x. unfold toplevel. rewrite (gone_live _ _ _ x Hg1). split.
    - intros [[Lx Dx] Px]. assert (L1x : live s1 x) by (apply (gone_live _ _ _ _ Hg1); auto).
      rewrite (attrs_parent _ _ (gone_attrs _ _ _ _ Hg1 L1x)) in Px. split; auto. intros ->. apply Dx. apply Hsub. split; auto. constructor.
    - intros [[Lx Px] Hx]. assert (Dx : ~ In x D1).
      { intro H. apply Hsub in H. destruct H as [_ H]. apply Hx. symmetry. eapply anc_of_root; eauto. }
      split; auto. assert (L1x : live s1 x) by (apply (gone_live _ _ _ _ Hg1); auto). rewrite (attrs_parent _ _ (gone_attrs _ _ _ _ Hg1 L1x)). auto. }
  assert (Hcov1 : forall x a, live s1 x -> (covers s1 x a <-> covers s x a)).
  { intros x a Lx. unfold covers. rewrite (attrs_begin _ _ (gone_attrs _ _ _ _ Hg1 Lx)), (attrs_end _ _ (gone_attrs _ _ _ _ Hg1 Lx)). tauto. }
  assert (Hmeet : forall x, toplevel s x -> x <> r -> (meets s x upto lim <-> meets s1 x e lim)).
  { intros x Hx Hxr. assert (H1x : toplevel s1 x) by (apply Htop1; auto).
    pose proof (toplevel_disj _ _ _ HI x r Hx Hr Hxr) as Hd. unfold disj in Hd. fold e in Hd.
    split; intros (a & Ha & Hc).
    - exists a. rewrite Hcov1 by apply H1x. split; auto. specialize (Hcov x a Hx Ha Hc). unfold covers, PAGENUM, PAGE in *. lia.
    - exists a. rewrite Hcov1 in Hc by apply H1x. split; auto. unfold u1, PAGE in *. lia. }
  destruct (IH s1 K1 rk e HI1) as (s2 & K2 & D2 & Hd2 & HI2 & Hg2 & HD2).
  - unfold e. pose proof (I_geo _ _ _ _ HI _ Lr). lia.
  - left. unfold e. eapply I_align; eauto. apply (I_kid _ _ _ _ HI); auto.
  - unfold u1, PAGE in *. lia.
  - intros x Hx Hxm. pose proof (proj1 (Htop1 x) Hx) as [Hx0 Hxr]. apply Hmeet in Hxm; auto. specialize (Hok x Hx0 Hxm).
    rewrite (attrs_begin _ _ (gone_attrs _ _ _ _ Hg1 (proj1 Hx))), (attrs_end _ _ (gone_attrs _ _ _ _ Hg1 (proj1 Hx))), (go_start _ _ _ Hg1). auto.
  - exists s2, K2, (D1 ++ D2). split; auto. split; auto.
    split; [eapply gone_app; eauto; intros x Hx; apply HD2 in Hx; apply Hx|].
    intro x. rewrite in_app_iff, HD2. split.
    + intros [Hx|(Lx & t & Ht & Htm & Hta)].
      * apply Hsub in Hx. split; [apply Hx|]. exists r. split; auto. split; auto. apply Hx.
      * pose proof (proj1 (Htop1 t) Ht) as [Ht0 Htr]. split; [apply (gone_live _ _ _ _ Hg1) in Lx; apply Lx|].
        exists t. split; auto. split; [apply Hmeet; auto|]. apply (proj1 (anc_gone s s1 D1 t x Hg1 Lx Hcl1)); auto.
    + intros (Lx & t & Ht & Htm & Hta). destruct (Nat.eq_dec t r) as [->|Htr].
      * left. apply Hsub. auto.
      * right. assert (Dx : ~ In x D1).
        { intro H. apply Hsub in H. destruct H as [_ H]. apply Htr. apply (root_unique s K rk t r x); auto. }
        assert (L1x : live s1 x) by (apply (gone_live _ _ _ _ Hg1); auto).
        split; auto. exists t. split; [apply Htop1; auto|]. split; [apply Hmeet; auto|]. apply (proj2 (anc_gone s s1 D1 t x Hg1 L1x Hcl1)); auto.
Qed.

Lemma delete_overlapping_ok s K rk lo hi :
  Inv nb s K rk -> 0 <= lo -> (lo mod PAGE = 0 \/ hi mod PAGE = 0) ->
  (forall r, toplevel s r -> meets s r lo hi -> b_end (bigs s r) - b_begin (bigs s r) <= biggest /\ r <> start s) ->
  exists s' K' D, delete_overlapping nb biggest dbg s lo hi = Ok s' /\ Inv nb s' K' rk /\ gone s s' D /\
    (forall x, In x D <-> doomed s lo hi x).
Proof. intros. apply delete_range_ok with (K := K); auto. Qed.

(* delete_at *)
Lemma delete_at_ok s K rk a al :
  Inv nb s K rk -> 
  (forall n, outermost s false a al n -> b_end (bigs s n) - b_begin (bigs s n) <= biggest /\ ~ anc s n (start s)) ->
  (delete_at nb biggest dbg s a al = Ok (s, false) /\ forall m, live s m -> covers s m a -> b_alloc (bigs s m) <> al) \/
  (exists s' K' n D, delete_at nb biggest dbg s a al = Ok (s', true) /\ outermost s false a al n /\
     Inv nb s' K' rk /\ subtree s n D /\ gone s s' D).
Proof.
  intros HI Hok. unfold delete_at. destruct (find_from_root_correct _ _ _ _ HI a al false) as (n & Hn & [[-> H]|H]).
  - left. rewrite Hn. cbn. split; auto.
  - right. rewrite Hn. cbn [bind]. pose proof H as (Ln & _). destruct (Nat.eqb_spec n 0) as [E|_]; [exfalso; subst; apply Ln; auto|].
    destruct (Hok n H) as [H1 H2]. destruct (bigalloc_del_ok nb biggest dbg s K rk n HI Ln H2 H1) as (s' & K' & D & A & B & C & F).
    rewrite A. cbn [bind]. exists s', K', n, D. auto.
Qed.
End Range.
