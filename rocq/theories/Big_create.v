(* Creation of a big allocation preserves the invariant. *)
From Verif Require Import Base Big_model Big_set Big_spec Big_inv Big_lookup Big_links Big_field.

Lemma add_toplevel_ok nb dbg s l n :
  dllx (bigs s) 0 l 0 -> before s l -> NoDup l ->
  (forall x, In x l -> x <> 0%nat /\ b_begin (bigs s x) < b_end (bigs s x)) ->
  (length l < S nb)%nat -> In (start s) l -> ~ In n l -> n <> 0%nat ->
  (forall x, In x l -> b_end (bigs s x) <= b_end (bigs s n) -> b_begin (bigs s x) < b_begin (bigs s n)) ->
  exists la lb s', l = la ++ lb /\
    (forall x, In x la -> b_end (bigs s x) <= b_end (bigs s n)) /\
    (forall x, In x lb -> b_end (bigs s n) < b_end (bigs s x)) /\
    add_toplevel nb dbg s n = Ok s' /\ same_data s s' /\
    (forall m, b_parent (bigs s' m) = b_parent (bigs s m)) /\
    (forall m, b_first (bigs s' m) = b_first (bigs s m)) /\
    (forall m, m <> 0%nat -> b_next (bigs s' m) = if Nat.eqb m n then hd 0%nat lb else if Nat.eqb m (last la 0%nat) then n else b_next (bigs s m)) /\
    (forall m, m <> 0%nat -> b_prev (bigs s' m) = if Nat.eqb m n then last la 0%nat else if Nat.eqb m (hd 0%nat lb) then n else b_prev (bigs s m)).
Proof.
  intros Hd Hb Hnd Hg Hl Hs Hn Hn0 Hgeo.
  destruct (lowest_ge_ok nb dbg s l Hd Hb Hnd Hg Hl Hs (b_end (bigs s n))) as (la & lb & El & Ha & Hbb & Hr).
  unfold add_toplevel. rewrite Hr. cbn [bind]. set (nx := hd 0%nat lb).
  assert (Hnxn : nx <> n) by (unfold nx; intros Hx; apply Hn; rewrite El; apply in_or_app; right; destruct lb; cbn [hd] in Hx; [congruence|subst; simpl; auto]).
  assert (Hlan : last la 0%nat <> n).
  { destruct la as [|w la]; [simpl; auto|]. intro Hx. apply Hn. rewrite El. apply in_or_app. left. rewrite <- Hx. apply last_In. congruence. }
  assert (Hpv : (if Nat.eqb nx 0 then toplevel_highest_lt nb dbg (s_next s n nx) (b_begin (bigs (s_next s n nx) n))
                 else Ok (b_prev (bigs (s_next s n nx) nx))) = Ok (last la 0%nat)).
  { autorewrite with big. destruct (Nat.eqb_spec nx 0) as [E|E].
    - assert (lb = []) as ->.
      { destruct lb as [|w lb]; auto. cbn in nx. unfold nx in E. subst. exfalso. apply (proj1 (Hg 0%nat ltac:(apply in_or_app; simpl; auto))); auto. }
      rewrite app_nil_r in El. subst la.
      destruct (highest_lt_ok nb dbg (s_next s n nx) l) with (a := b_begin (bigs s n)) as (lc & ld & El & Hc & Hdd & Hr2).
      + apply dllx_ext with (f := bigs s); auto; intros x Hx; autorewrite with big; auto.
        destruct (Nat.eqb_spec x n); [subst; contradiction|auto].
      + clear - Hb. induction l as [|x l IH]; cbn [before] in *; auto. destruct Hb as [H1 H2]. split; auto.
        intros y Hy. autorewrite with big; auto.
      + auto.
      + intros x Hx. autorewrite with big; auto.
      + auto.
      + autorewrite with big; auto.
      + rewrite Hr2. destruct ld as [|w ld]; [rewrite app_nil_r in El; subst; auto|]. exfalso.
        specialize (Hdd w ltac:(simpl; auto)). autorewrite with big in Hdd.
        assert (Hw : In w l) by (rewrite El; apply in_or_app; simpl; auto).
        specialize (Ha w Hw). specialize (Hgeo w Hw). lia.
    - f_equal. unfold nx in *. destruct lb as [|w lb]; [cbn in E; congruence|]. cbn [hd].
      rewrite El in Hd. apply dllx_app in Hd. cbn [dllx] in Hd. tauto. }
  rewrite Hpv. cbn [bind]. set (pv := last la 0%nat) in *. exists la, lb. eexists. split; [exact El|]. split; [intros x Hx; specialize (Ha x Hx); lia|].
  split; [intros x Hx; specialize (Hbb x Hx); lia|].
  fold nx. fold pv.
  split; [reflexivity|]. split.
  { eapply same_data_trans; [|apply same_data_if, same_data_prev].
    eapply same_data_trans; [|apply same_data_if, same_data_next].
    eapply same_data_trans; [|apply same_data_prev]. apply same_data_next. }
  destruct (Nat.eqb_spec nx 0) as [E|E]; destruct (Nat.eqb_spec pv 0) as [E2|E2]; repeat split; intros; autorewrite with big; auto.
  all: repeat match goal with |- context [Nat.eqb ?a ?b] => destruct (Nat.eqb_spec a b) end; try congruence.
Qed.

Lemma before_ext s s' l : (forall x, In x l -> b_begin (bigs s' x) = b_begin (bigs s x) /\ b_end (bigs s' x) = b_end (bigs s x)) ->
  before s l -> before s' l.
Proof.
  induction l as [|x l IH]; intro H; cbn [before]; auto. intros [H1 H2]. split; [|apply IH; auto; intros; apply H; simpl; auto].
  intros y Hy. destruct (H x ltac:(simpl; auto)) as [_ ->]. destruct (H y ltac:(simpl; auto)) as [-> _]. auto.
Qed.

Lemma links_length nb s K rk p : Links nb s K rk -> (length (K p) < S nb)%nat.
Proof.
  intro HL. assert (H : incl (K p) (seq 0 nb)).
  { intros x Hx. apply in_seq. apply (L_kid _ _ _ _ HL) in Hx. destruct Hx as [Hx _].
    pose proof (L_bnd _ _ _ _ HL _ Hx). lia. }
  pose proof (NoDup_incl_length (L_nodup _ _ _ _ HL p) H) as H2. rewrite seq_length in H2. lia.
Qed.

Section Create.
Variables (nb : nat) (biggest : Z) (dbg : bool).

Lemma init_nomemset_ok s K rk n p ptr size al su pr sp r :
  Inv nb s K rk -> n <> 0%nat -> in_use (bigs s n) = false -> (n < nb)%nat -> node s p ->
  0 < ptr -> 0 < size -> (p <> 0%nat -> (rk p < r)%nat) ->
  (p <> 0%nat -> b_begin (bigs s p) <= ptr /\ ptr + size <= b_end (bigs s p)) ->
  (p = 0%nat -> forall x, In x (K 0%nat) -> b_end (bigs s x) <= ptr + size -> b_begin (bigs s x) < ptr) ->
  exists s' l1 l2, init_nomemset nb dbg s n ptr size p al su pr sp = Ok s' /\ K p = l1 ++ l2 /\
    (p <> 0%nat -> l1 = []) /\
    (p = 0%nat -> (forall x, In x l1 -> b_end (bigs s x) <= ptr + size) /\ (forall x, In x l2 -> ptr + size < b_end (bigs s x))) /\
    Links nb s' (Kset K p (l1 ++ n :: l2)) (fun m => if Nat.eqb m n then r else rk m) /\
    (forall m, m <> n -> attrs_of (bigs s' m) = attrs_of (bigs s m)) /\
    attrs_of (bigs s' n) = mkAttrs ptr (ptr + size) p al su pr sp /\
    pidx s' = pidx s /\ start s' = start s /\ log s' = log s.
Proof.
  intros HI Hn0 Hnu Hnb Hp Hptr Hsz Hr Hin Htop.
  pose proof (Inv_Links _ _ _ _ HI) as HL.
  pose proof (L_free _ _ _ _ HL n Hn0 Hnu) as Hpar0.
  unfold init_nomemset. cbn zeta. rewrite Hpar0.
  set (b1 := mkBig ptr (ptr + size) 0 0 0 0 al su pr sp). set (s1 := put s n b1).
  assert (B1 : forall m, bigs s1 m = if Nat.eqb m n then b1 else bigs s m) by (intro; apply put_bigs).
  assert (B1n : bigs s1 n = b1) by (rewrite B1, Nat.eqb_refl; reflexivity).
  assert (B1o : forall m, m <> n -> bigs s1 m = bigs s m) by (intros m Hm; rewrite B1; destruct (Nat.eqb_spec m n); congruence).
  assert (Hnk : forall q, ~ In n (K q)) by (intros q H; apply (L_kid _ _ _ _ HL) in H; destruct H as [[_ H] _]; congruence).
  assert (Hpn : p <> n) by (intros ->; destruct Hp as [H|[_ H]]; congruence).
  assert (Hu1 : in_use b1 = true) by (unfold in_use; cbn [b_begin b_end]; unfold b1; cbn [b_begin b_end]; lia).
  assert (Hpix : forall q, pidx s q <> n).
  { intros q Hq. destruct (I_pix _ _ _ _ HI q) as ([H|[_ H]] & _); congruence. }
  destruct (Nat.eqb_spec p 0) as [Ep|Ep].
  - (* top level *)
    subst p. clear Hin. specialize (Htop eq_refl).
    destruct (add_toplevel_ok nb dbg s1 (K 0%nat) n) as (la & lb & s' & El & Ha & Hbb & Hadd & Hsd & HP & HF & HN & HV).
    + apply dllx_ext with (f := bigs s); [| |apply (L_dll _ _ _ _ HL)]; intros x Hx; rewrite B1o; auto; intros ->; eapply Hnk; eauto.
    + apply before_ext with (s := s); [|apply (I_before _ _ _ _ HI)]. intros x Hx. rewrite B1o; auto. intros ->; eapply Hnk; eauto.
    + apply (L_nodup _ _ _ _ HL).
    + intros x Hx. assert (x <> n) by (intros ->; eapply Hnk; eauto). rewrite B1o by auto.
      apply (L_kid _ _ _ _ HL) in Hx. destruct Hx as [Hx _]. split; [apply Hx|]. apply (I_geo _ _ _ _ HI) in Hx. lia.
    + eapply links_length; eauto.
    + unfold s1. autorewrite with big. apply (L_start _ _ _ _ HL).
    + auto.
    + auto.
    + intros x Hx. assert (x <> n) by (intros ->; eapply Hnk; eauto). rewrite B1o, B1n by auto. cbn [b_begin b_end b1]. apply Htop; auto.
    + rewrite Hadd. cbn [bind].
      assert (Hpix' : pidx s' = pidx s) by (destruct Hsd as (_ & -> & _); reflexivity).
      assert (HD : forall m, b_begin (bigs s' m) = b_begin (bigs s1 m) /\ b_end (bigs s' m) = b_end (bigs s1 m)) by (intro m; destruct Hsd as (H & _); destruct (H m); tauto).
      rewrite asrt_true.
      2:{ unfold sanity. rewrite Hpix'. destruct (HD n) as [-> ->]. rewrite HP, B1n. cbn [b_begin b_end b_parent b1].
          assert (in_use (bigs s' n) = true) as -> by (rewrite (same_data_in_use _ _ _ Hsd), B1n; auto).
          pose proof (Hpix (PAGENUM (ptr - 1))). pose proof (Hpix (PAGENUM (ptr + size))).
          destruct (Nat.eqb_spec (pidx s (PAGENUM (ptr - 1))) n); [congruence|].
          destruct (Nat.eqb_spec (pidx s (PAGENUM (ptr + size))) n); [congruence|]. 
          cbn [implb negb andb orb Nat.eqb]. lia. }
      cbn [bind].
      assert (Hat : forall m, attrs_of (bigs s' m) = attrs_of (bigs s1 m)).
      { intro m. unfold attrs_of. destruct Hsd as (H & _). destruct (H m) as (-> & -> & -> & -> & -> & ->). rewrite HP. reflexivity. }
      exists s', la, lb. split; [reflexivity|]. split; [exact El|]. split; [congruence|].
      assert (Hne : forall x, In x (la ++ lb) -> x <> n) by (intros x Hx ->; rewrite <- El in Hx; eapply Hnk; eauto).
      split.
      { intros _. split; intros x Hx.
        - specialize (Ha x Hx). rewrite B1n, B1o in Ha by (apply Hne, in_or_app; auto). exact Ha.
        - specialize (Hbb x Hx). rewrite B1n, B1o in Hbb by (apply Hne, in_or_app; auto). exact Hbb. }
      split.
      { apply links_insert with (s := s); auto.
        - rewrite (same_data_in_use _ _ _ Hsd), B1n; auto.
        - intros m Hm. rewrite (same_data_in_use _ _ _ Hsd), B1o; auto.
        - intro m. rewrite HP, B1. destruct (Nat.eqb_spec m n); auto.
        - rewrite HF, B1n. reflexivity.
        - intros m Hm Hlm. rewrite HF, B1o by auto. destruct (Nat.eqb_spec m 0); [destruct Hlm; congruence|auto].
        - rewrite HN, Nat.eqb_refl by auto. reflexivity.
        - rewrite HV, Nat.eqb_refl by auto. reflexivity.
        - intros m Hm. assert (m <> n) by (intros ->; destruct Hm; congruence). rewrite HN by (apply Hm).
          destruct (Nat.eqb_spec m n); [congruence|]. rewrite B1o by auto. reflexivity.
        - intros m Hm. assert (m <> n) by (intros ->; destruct Hm; congruence). rewrite HV by (apply Hm).
          destruct (Nat.eqb_spec m n); [congruence|]. rewrite B1o by auto. reflexivity.
        - destruct Hsd as (_ & _ & -> & _). unfold s1. autorewrite with big. reflexivity. }
      split; [intros m Hm; rewrite Hat, B1o; auto|]. split; [rewrite Hat, B1n; reflexivity|].
      split; [auto|]. destruct Hsd as (_ & _ & -> & ->). unfold s1. autorewrite with big. auto.
  - (* a child *)
    destruct Hp as [Hp|Hp]; [congruence|]. specialize (Hin Ep).
    pose proof (L_first _ _ _ _ HL p Hp) as Hfp.
    assert (Hfn : hd 0%nat (K p) <> n).
    { intro Hx. destruct (K p) as [|w l] eqn:E; cbn [hd] in Hx; [congruence|]. apply (Hnk p). rewrite E. subst. simpl; auto. }
    destruct (add_child_ok dbg s1 n p) as (s' & Hadd & Hsd & HP & HF & HN & HV); auto.
    + rewrite B1n; reflexivity.
    + rewrite B1n; reflexivity.
    + rewrite B1n; reflexivity.
    + rewrite B1o, Hfp by auto. auto.
    + rewrite B1o, Hfp by auto. intro Hx. rewrite B1o by auto. pose proof (L_dll _ _ _ _ HL p) as H.
      destruct (K p) as [|w l]; cbn [hd dllx] in *; [congruence|tauto].
    + rewrite (B1o p) in HN, HV by auto. rewrite Hfp in HN, HV.
      rewrite Hadd. cbn [bind].
      assert (Hpix' : pidx s' = pidx s) by (destruct Hsd as (_ & -> & _); reflexivity).
      assert (HD : forall m, b_begin (bigs s' m) = b_begin (bigs s1 m) /\ b_end (bigs s' m) = b_end (bigs s1 m)) by (intro m; destruct Hsd as (H & _); destruct (H m); tauto).
      rewrite asrt_true.
      2:{ unfold sanity. rewrite Hpix'. destruct (HD n) as [-> ->]. rewrite HP, Nat.eqb_refl, B1n. cbn [b_begin b_end b_parent b1].
          assert (in_use (bigs s' n) = true) as -> by (rewrite (same_data_in_use _ _ _ Hsd), B1n; auto).
          destruct (HD p) as [-> ->]. rewrite B1o by auto.
          pose proof (Hpix (PAGENUM (ptr - 1))). pose proof (Hpix (PAGENUM (ptr + size))).
          destruct (Nat.eqb_spec (pidx s (PAGENUM (ptr - 1))) n); [congruence|].
          destruct (Nat.eqb_spec (pidx s (PAGENUM (ptr + size))) n); [congruence|].
          cbn [implb negb andb orb]. lia. }
      cbn [bind].
      assert (Hat : forall m, attrs_of (bigs s' m) = if Nat.eqb m n then mkAttrs ptr (ptr + size) p al su pr sp else attrs_of (bigs s m)).
      { intro m. unfold attrs_of. destruct Hsd as (H & _). destruct (H m) as (-> & -> & -> & -> & -> & ->). rewrite HP, B1.
        destruct (Nat.eqb_spec m n); reflexivity. }
      exists s', [], (K p). split; [reflexivity|]. split; [reflexivity|]. split; [auto|]. split; [congruence|].
      split.
      { apply links_insert with (s := s); auto; cbn [app hd last].
        - right; auto.
        - rewrite (same_data_in_use _ _ _ Hsd), B1n; auto.
        - intros m Hm. rewrite (same_data_in_use _ _ _ Hsd), B1o; auto.
        - intro m. rewrite HP, B1. destruct (Nat.eqb_spec m n); auto.
        - rewrite HF, B1n. destruct (Nat.eqb_spec n p); [congruence|reflexivity].
        - intros m Hm Hlm. rewrite HF, B1o by auto. reflexivity.
        - rewrite HN, Nat.eqb_refl by auto. reflexivity.
        - rewrite HV, B1n by auto. destruct (Nat.eqb_spec n (hd 0%nat (K p))); [congruence|]. reflexivity.
        - intros m Hm. assert (m <> n) by (intros ->; destruct Hm; congruence). rewrite HN by (apply Hm).
          destruct (Nat.eqb_spec m n); [congruence|]. rewrite B1o by auto. destruct (Nat.eqb_spec m 0); [destruct Hm; congruence|auto].
        - intros m Hm. assert (m <> n) by (intros ->; destruct Hm; congruence). rewrite HV by (apply Hm).
          rewrite B1o by auto. reflexivity.
        - destruct Hsd as (_ & _ & -> & _). unfold s1. autorewrite with big. reflexivity. }
      split; [intros m Hm; rewrite Hat; destruct (Nat.eqb_spec m n); congruence|]. split; [rewrite Hat, Nat.eqb_refl; reflexivity|].
      split; [auto|]. destruct Hsd as (_ & _ & -> & ->). unfold s1. autorewrite with big. auto.
Qed.

End Create.

(* ---- the page index update ---- *)
Lemma PAGE_DIST_nonneg a b : 0 <= PAGE_DIST a b.
Proof. unfold PAGE_DIST. destruct (Z.ltb_spec (PAGENUM a) (PAGENUM b)); lia. Qed.

Lemma checks_ok p q old n : 0 <= n -> (forall k, q <= k < q + n -> p k = 0%nat \/ p k = old) ->
  memset_checks p q old n = true.
Proof.
  intros Hn H. unfold memset_checks. cbn zeta.
  assert (HL : forall k, q <= k < q + n -> loc_ok (p k) old = true).
  { intros k Hk. unfold loc_ok. destruct (H k Hk) as [->| ->]; [reflexivity|]. rewrite Nat.eqb_refl. apply orb_true_r. }
  set (odd0 := (0 <? n) && Z.odd q).
  assert (E0 : odd0 = true -> 0 < n) by (unfold odd0; intro; lia).
  set (q1 := if odd0 then q + 1 else q). set (n1 := if odd0 then n - 1 else n).
  assert (0 <= n1 /\ q <= q1 /\ q1 + n1 = q + n) by (unfold q1, n1; destruct odd0; [specialize (E0 eq_refl)|]; lia).
  rewrite !andb_true_iff. split; [split|].
  - destruct odd0; [|reflexivity]. cbn [implb]. apply HL. specialize (E0 eq_refl). lia.
  - destruct (Nat.eqb old 0); [reflexivity|]. cbn [negb implb]. apply forallb_forall. intros k Hk.
    apply HL. unfold zrange in Hk. apply in_map_iff in Hk. destruct Hk as (j & <- & Hj). apply in_seq in Hj. lia.
  - destruct (Z.odd n1) eqn:Eo; [|reflexivity]. cbn [implb]. apply HL.
    assert (n1 <> 0) by (intro Hz; rewrite Hz in Eo; discriminate). lia.
Qed.

Lemma memset_ok biggest dbg s q num old n :
  0 <= n <= biggest / PAGE -> (forall k, q <= k < q + n -> pidx s k = 0%nat \/ pidx s k = old) ->
  memset_bigalloc biggest dbg s q num old n =
    Ok (set_pidx s (fun k => if (q <=? k) && (k <? q + n) then num else pidx s k)).
Proof.
  intros Hn H. unfold memset_bigalloc. destruct (Z.ltb_spec (biggest / PAGE) n); [lia|].
  rewrite asrt_true by (apply checks_ok; [lia|auto]). reflexivity.
Qed.

Definition spansb (lo hi q : Z) : bool := (lo <=? PAGE * q) && (PAGE * q + PAGE <=? hi).
Lemma spansb_spec s n q : spansb (b_begin (bigs s n)) (b_end (bigs s n)) q = true <-> spans s n q.
Proof. unfold spansb, spans. lia. Qed.

Lemma page_range lo hi k :
  (PAGENUM (RUP lo) <=? k) && (k <? PAGENUM (RUP lo) + PAGE_DIST (RUP lo) (RDOWN hi)) = spansb lo hi k.
Proof.
  unfold spansb, PAGE_DIST, PAGENUM, RUP, RDOWN. rewrite !Z.div_mul by (unfold PAGE; lia).
  destruct (Z.ltb_spec ((lo + (PAGE - 1)) / PAGE) (hi / PAGE)); unfold PAGE in *; lia.
Qed.
Lemma page_dist_le lo hi big : lo <= hi -> hi - lo <= big -> PAGE_DIST (RUP lo) (RDOWN hi) <= big / PAGE.
Proof.
  intros H1 H2. unfold PAGE_DIST, PAGENUM, RUP, RDOWN. rewrite !Z.div_mul by (unfold PAGE; lia).
  destruct (Z.ltb_spec ((lo + (PAGE - 1)) / PAGE) (hi / PAGE)); unfold PAGE in *; lia.
Qed.

Lemma attrs_begin b b' : attrs_of b = attrs_of b' -> b_begin b = b_begin b'.
Proof. unfold attrs_of; intro H; injection H; auto. Qed.
Lemma attrs_end b b' : attrs_of b = attrs_of b' -> b_end b = b_end b'.
Proof. unfold attrs_of; intro H; injection H; auto. Qed.
Lemma attrs_parent b b' : attrs_of b = attrs_of b' -> b_parent b = b_parent b'.
Proof. unfold attrs_of; intro H; injection H; auto. Qed.
Lemma attrs_in_use b b' : attrs_of b = attrs_of b' -> in_use b = in_use b'.
Proof. intro H. unfold in_use. rewrite (attrs_begin _ _ H), (attrs_end _ _ H). reflexivity. Qed.
Lemma attrs_view s s' m : attrs_of (bigs s' m) = attrs_of (bigs s m) -> view s' m = view s m.
Proof. intro H. unfold view. rewrite H, (attrs_in_use _ _ H). reflexivity. Qed.
Lemma view_live s m : live s m <-> view s m <> None.
Proof. unfold live, view. destruct (Nat.eqb_spec m 0); cbn [negb andb]; [split; [tauto|congruence]|]. destruct (in_use (bigs s m)); split; try tauto; try congruence. intros [_ H]; discriminate. Qed.
Lemma live_view s m : live s m -> view s m = Some (attrs_of (bigs s m)).
Proof. unfold live, view. intros [H1 H2]. destruct (Nat.eqb_spec m 0); [congruence|]. rewrite H2. reflexivity. Qed.

Lemma geo_insert nb s s' K rk n p l1 l2 lo hi :
  Inv nb s K rk -> K p = l1 ++ l2 -> node s p -> n <> 0%nat -> in_use (bigs s n) = false ->
  (forall m, m <> n -> attrs_of (bigs s' m) = attrs_of (bigs s m)) ->
  b_begin (bigs s' n) = lo -> b_end (bigs s' n) = hi -> b_parent (bigs s' n) = p -> 0 < lo < hi ->
  (p <> 0%nat -> b_begin (bigs s p) <= lo /\ hi <= b_end (bigs s p)) ->
  (forall x, In x (K p) -> b_end (bigs s x) <= lo \/ hi <= b_begin (bigs s x)) ->
  (p = 0%nat -> (forall x, In x l1 -> b_end (bigs s x) <= lo) /\ (forall x, In x l2 -> hi <= b_begin (bigs s x)) /\
                lo mod PAGE = 0 /\ hi mod PAGE = 0) ->
  (forall q, pidx s' q = if spansb lo hi q then n else pidx s q) ->
  Geo s' (Kset K p (l1 ++ n :: l2)).
Proof.
  intros HI HK Hp Hn0 Hnu Hat Hlo Hhi Hpar Hr Hin Hdis Htop Hpix.
  pose proof (Inv_Links _ _ _ _ HI) as HL.
  assert (Hnl : ~ live s n) by (intros [_ H]; congruence).
  assert (Hnk : forall q, ~ In n (K q)) by (intros q H; apply (L_kid _ _ _ _ HL) in H; tauto).
  assert (Hpn : p <> n) by (intros ->; destruct Hp as [H|H]; congruence).
  assert (Hkn : K n = []) by (eapply dead_no_kids; eauto).
  assert (Hu : in_use (bigs s' n) = true) by (unfold in_use; rewrite Hlo, Hhi; lia).
  assert (Hlive : forall m, live s' m <-> m = n \/ live s m).
  { intro m. unfold live. destruct (Nat.eq_dec m n) as [->|E]; [tauto|]. rewrite (attrs_in_use _ _ (Hat m E)). tauto. }
  assert (HB : forall m, m <> n -> b_begin (bigs s' m) = b_begin (bigs s m)) by (intros; apply attrs_begin; auto).
  assert (HE : forall m, m <> n -> b_end (bigs s' m) = b_end (bigs s m)) by (intros; apply attrs_end; auto).
  assert (HP : forall m, m <> n -> b_parent (bigs s' m) = b_parent (bigs s m)) by (intros; apply attrs_parent; auto).
  assert (Hkne : forall q x, In x (K q) -> x <> n) by (intros q x Hx ->; eapply Hnk; eauto).
  constructor.
  - intros m Hm. apply Hlive in Hm. destruct (Nat.eq_dec m n) as [->|E]; [rewrite Hlo, Hhi; auto|].
    destruct Hm as [Hm|Hm]; [congruence|]. rewrite HB, HE by auto. apply (I_geo _ _ _ _ HI); auto.
  - intros m Hm. apply Hlive in Hm. destruct (Nat.eq_dec m n) as [->|E].
    + rewrite Hpar, Hlo, Hhi. intro Hz. rewrite HB, HE by auto. auto.
    + destruct Hm as [Hm|Hm]; [congruence|]. rewrite HP by auto. intro Hz.
      destruct (Nat.eq_dec (b_parent (bigs s m)) n) as [E2|E2].
      * exfalso. destruct (I_par _ _ _ _ HI _ Hm) as [H|H]; rewrite E2 in H; tauto.
      * rewrite !HB, !HE by auto. apply (I_in _ _ _ _ HI); auto.
  - intros q a b Ha Hb Hab. unfold disj.
    assert (Hcase : forall x, In x (Kset K p (l1 ++ n :: l2) q) -> (q = p /\ x = n) \/ (In x (K q) /\ x <> n)).
    { intros x Hx. destruct (Nat.eq_dec q p) as [->|E].
      - rewrite Kset_same, in_mid, <- HK in Hx. destruct Hx as [->|Hx]; [left; auto|right; split; auto; eapply Hkne; eauto].
      - rewrite Kset_other in Hx by auto. right; split; auto. eapply Hkne; eauto. }
    destruct (Hcase a Ha) as [[Eq ->]|[Ha1 Ha2]]; destruct (Hcase b Hb) as [[Eq' ->]|[Hb1 Hb2]].
    + congruence.
    + subst q. rewrite Hlo, Hhi, HB, HE by auto. specialize (Hdis b Hb1). lia.
    + subst q. rewrite Hlo, Hhi, HB, HE by auto. specialize (Hdis a Ha1). lia.
    + rewrite !HB, !HE by auto. apply (I_disj _ _ _ _ HI q); auto.
  - destruct (Nat.eq_dec 0 p) as [<-|E].
    + rewrite Kset_same. destruct (Htop eq_refl) as (H1 & H2 & _).
      pose proof (I_before _ _ _ _ HI) as Hb. rewrite HK in Hb. apply before_app in Hb. destruct Hb as (Hb1 & Hb2 & Hb3).
      assert (Hx1 : forall x, In x l1 -> x <> n) by (intros x Hx; apply (Hkne 0%nat); rewrite HK; apply in_or_app; auto).
      assert (Hx2 : forall x, In x l2 -> x <> n) by (intros x Hx; apply (Hkne 0%nat); rewrite HK; apply in_or_app; auto).
      apply before_app. cbn [before]. split; [|split; [split|]].
      * apply before_ext with (s := s); auto.
      * intros y Hy. rewrite Hhi, HB by auto. auto.
      * apply before_ext with (s := s); auto.
      * intros x y Hx [<-|Hy]; [rewrite Hlo, HE by auto; auto|rewrite HB, HE by auto; auto].
    + rewrite Kset_other by auto. apply before_ext with (s := s); [|apply (I_before _ _ _ _ HI)].
      intros x Hx. assert (x <> n) by (eapply Hkne; eauto). split; auto.
  - intros m Hm. destruct (Nat.eq_dec 0 p) as [<-|E].
    + rewrite Kset_same, in_mid, <- HK in Hm. destruct (Nat.eq_dec m n) as [->|E2].
      * rewrite Hlo, Hhi. destruct (Htop eq_refl) as (_ & _ & H). auto.
      * destruct Hm as [Hm|Hm]; [congruence|]. rewrite HB, HE by auto. apply (I_align _ _ _ _ HI); auto.
    + rewrite Kset_other in Hm by auto. assert (m <> n) by (eapply Hkne; eauto). rewrite HB, HE by auto. apply (I_align _ _ _ _ HI); auto.
  - intro q. rewrite Hpix. destruct (spansb lo hi q) eqn:Eq.
    + split; [right; apply Hlive; auto|]. split; [right; apply spansb_spec; rewrite Hlo, Hhi; auto|].
      rewrite Kset_other, Hkn by auto. intros c [].
    + destruct (I_pix _ _ _ _ HI q) as (H1 & H2 & H3). set (m := pidx s q) in *.
      assert (m <> n) by (intros ->; destruct H1; tauto).
      split; [destruct H1 as [H1|H1]; [left; auto|right; apply Hlive; auto]|].
      split; [destruct H2 as [H2|H2]; [left; auto|right; unfold spans in *; rewrite HB, HE by auto; auto]|].
      intros c Hc. destruct (Nat.eq_dec m p) as [E|E].
      * rewrite E, Kset_same, in_mid, <- HK in Hc. destruct (Nat.eq_dec c n) as [->|E2].
        -- rewrite <- spansb_spec, Hlo, Hhi, Eq. discriminate.
        -- destruct Hc as [Hc|Hc]; [congruence|]. unfold spans. rewrite HB, HE by auto. apply H3. rewrite E; auto.
      * rewrite Kset_other in Hc by auto. unfold spans. assert (c <> n) by (eapply Hkne; eauto). rewrite HB, HE by auto. apply H3. auto.
Qed.

Section Create2.
Variables (nb : nat) (biggest : Z) (dbg : bool).

Lemma bigalloc_init_ok s K rk n p ptr size al su pr sp :
  Inv nb s K rk -> n <> 0%nat -> in_use (bigs s n) = false -> (n < nb)%nat -> node s p ->
  0 < ptr -> 0 < size <= biggest ->
  (p <> 0%nat -> b_begin (bigs s p) <= ptr /\ ptr + size <= b_end (bigs s p)) ->
  (forall x, In x (K p) -> b_end (bigs s x) <= ptr \/ ptr + size <= b_begin (bigs s x)) ->
  (p = 0%nat -> ptr mod PAGE = 0 /\ (ptr + size) mod PAGE = 0) ->
  exists s' K' rk', bigalloc_init nb biggest dbg s n ptr size p al su pr sp = Ok s' /\
    Inv nb s' K' rk' /\
    (forall m, m <> n -> attrs_of (bigs s' m) = attrs_of (bigs s m)) /\
    attrs_of (bigs s' n) = mkAttrs ptr (ptr + size) p al su pr sp /\
    start s' = start s /\ log s' = log s.
Proof.
  intros HI Hn0 Hnu Hnb Hp Hptr Hsz Hin Hdis Hal.
  destruct (init_nomemset_ok nb dbg s K rk n p ptr size al su pr sp (S (rk p))) as
    (s1 & l1 & l2 & Hinit & HK & Hl1 & Htop & HL1 & Hat & Hatn & Hpx & Hst & Hlg); auto; try lia.
  { intros -> x Hx Hle. pose proof (I_geo _ _ _ _ HI _ (kid_live _ _ _ _ HI _ _ Hx)). destruct (Hdis x Hx); lia. }
  unfold bigalloc_init. rewrite Hinit. cbn [bind].
  assert (Hb : b_begin (bigs s1 n) = ptr) by (unfold attrs_of in Hatn; injection Hatn; auto).
  assert (He : b_end (bigs s1 n) = ptr + size) by (unfold attrs_of in Hatn; injection Hatn; auto).
  assert (Hpr : b_parent (bigs s1 n) = p) by (unfold attrs_of in Hatn; injection Hatn; auto).
  rewrite Hb, He.
  rewrite memset_ok.
  2:{ split; [apply PAGE_DIST_nonneg|apply page_dist_le; lia]. }
  2:{ intros k Hk. rewrite Hpx. right.
      assert (Hsp : spansb ptr (ptr + size) k = true) by (rewrite <- page_range; lia).
      eapply pix_is; eauto.
      - destruct Hp as [Hp|Hp]; [left; auto|right]. destruct (Hin (live_nz _ _ Hp)). unfold spansb in Hsp. unfold spans. lia.
      - intros c Hc Hsc. specialize (Hdis c Hc). unfold spansb in Hsp. unfold spans in Hsc. unfold PAGE in *. lia. }
  cbn [bind].
  set (s2 := set_pidx s1 _).
  assert (HI2 : Inv nb s2 (Kset K p (l1 ++ n :: l2)) (fun m => if Nat.eqb m n then S (rk p) else rk m)).
  { apply mkInv.
    - eapply links_same; eauto.
    - eapply geo_insert with (lo := ptr) (hi := ptr + size); eauto.
      + lia.
      + intros ->. destruct (Htop eq_refl) as [T1 T2]. split; [|split; [|auto]].
        * intros x Hx. specialize (T1 x Hx). assert (Hxk : In x (K 0%nat)) by (rewrite HK; apply in_or_app; auto).
          pose proof (I_geo _ _ _ _ HI _ (kid_live _ _ _ _ HI _ _ Hxk)). destruct (Hdis x Hxk); lia.
        * intros x Hx. specialize (T2 x Hx). assert (Hxk : In x (K 0%nat)) by (rewrite HK; apply in_or_app; auto).
          destruct (Hdis x Hxk); auto. lia.
      + intro q. unfold s2. autorewrite with big. rewrite page_range, Hpx. reflexivity. }
  rewrite asrt_true.
  2:{ eapply sanity_ok; eauto. split; auto. rewrite (attrs_in_use _ _ (eq_refl : attrs_of (bigs s2 n) = attrs_of (bigs s1 n))).
      unfold in_use. rewrite Hb, He. lia. }
  cbn [bind]. exists s2, (Kset K p (l1 ++ n :: l2)), (fun m => if Nat.eqb m n then S (rk p) else rk m).
  split; [reflexivity|]. split; [exact HI2|]. split; [exact Hat|]. split; [exact Hatn|]. split; [exact Hst|exact Hlg].
Qed.

Lemma find_free_from_spec s : forall fuel k,
  (exists n, find_free_from k fuel s = Ok n /\ (k <= n < k + fuel)%nat /\ in_use (bigs s n) = false) \/
  (find_free_from k fuel s = Abort /\ forall n, (k <= n < k + fuel)%nat -> in_use (bigs s n) = true).
Proof.
  induction fuel as [|f IH]; intro k; cbn [find_free_from].
  - right. split; [reflexivity|]. lia.
  - destruct (in_use (bigs s k)) eqn:E.
    + destruct (IH (S k)) as [(n & H1 & H2 & H3)|(H1 & H2)].
      * left. exists n. split; [auto|]. split; [lia|auto].
      * right. split; auto. intros n Hn. destruct (Nat.eq_dec n k) as [->|E2]; auto. apply H2. lia.
    + left. exists k. split; [reflexivity|]. split; [lia|auto].
Qed.

Lemma find_free_ok s : has_free nb s -> exists n, find_free nb s = Ok n /\ n <> 0%nat /\ (n < nb)%nat /\ in_use (bigs s n) = false.
Proof.
  intros (m & Hm & Hu). unfold find_free. destruct (find_free_from_spec s (nb - 1) 1) as [(n & H1 & H2 & H3)|(_ & H2)].
  - exists n. split; [auto|]. split; [lia|]. split; [lia|auto].
  - rewrite H2 in Hu by lia. discriminate.
Qed.

Lemma rup_aligned a : RUP a = a <-> a mod PAGE = 0.
Proof. unfold RUP, PAGE. lia. Qed.

Lemma new_bigalloc_ok s K rk ptr size pr mp al p :
  Inv nb s K rk -> has_free nb s -> size <= biggest -> fits s p ptr (ptr + size) -> parent_choice s mp p ptr (ptr + size) ->
  exists s' n K' rk', new_bigalloc nb biggest dbg s ptr size pr mp al = Ok (s', n) /\ Inv nb s' K' rk' /\
    n <> 0%nat /\ view s n = None /\
    (forall m, view s' m = if Nat.eqb m n then Some (mkAttrs ptr (ptr + size) p al 0 pr 0) else view s m) /\
    start s' = start s /\ log s' = log s.
Proof.
  intros HI Hfree Hsz (Hr & Hin & Hdis) Hch. unfold new_bigalloc.
  destruct (Z.ltb_spec biggest size); [lia|].
  assert (Hpar : (if negb (Nat.eqb mp 0) then Ok mp
     else
       do d1 <- find_deepest nb s ptr ;
       do d2 <- find_deepest nb s (ptr + size - 1) ;
       if negb (Nat.eqb d1 d2) then Abort
       else if Nat.eqb d1 0 then
         if negb (RUP ptr =? ptr) then Abort
         else if negb (RUP (ptr + size) =? ptr + size) then Abort
         else Ok 0%nat
       else Ok d1) = Ok p).
  { unfold parent_choice in Hch. destruct (Nat.eqb_spec mp 0) as [E|E]; cbn [negb]; [|congruence].
    destruct Hch as [H1 H2].
    destruct (find_deepest_correct nb s K rk HI ptr) as (d1 & -> & D1).
    destruct (find_deepest_correct nb s K rk HI (ptr + size - 1)) as (d2 & -> & D2). cbn [bind].
    rewrite (lookup_answer_unique _ _ _ _ HI _ _ _ D1 H1), (lookup_answer_unique _ _ _ _ HI _ _ _ D2 H2), Nat.eqb_refl. cbn [negb].
    destruct (Nat.eqb_spec p 0) as [->|E2]; [|reflexivity]. cbn in Hin. destruct Hin as [A1 A2].
    apply rup_aligned in A1. apply rup_aligned in A2. rewrite A1, A2, !Z.eqb_refl. reflexivity. }
  rewrite Hpar. cbn [bind].
  assert (Hnode : node s p) by (destruct (Nat.eqb_spec p 0); [left; auto|right; tauto]).
  rewrite asrt_true.
  2:{ destruct Hnode as [->|Hl]; [reflexivity|]. erewrite sanity_ok by eauto. apply orb_true_r. }
  cbn [bind].
  destruct (find_free_ok s Hfree) as (n & -> & Hn0 & Hnb & Hnu). cbn [bind].
  destruct (bigalloc_init_ok s K rk n p ptr size al 0 pr 0) as (s' & K' & rk' & -> & HI' & Hat & Hatn & Hst & Hlg); auto; try lia.
  { intro Hz. destruct (Nat.eqb_spec p 0); [congruence|tauto]. }
  { intros x Hx. apply (I_kid _ _ _ _ HI) in Hx. apply Hdis; tauto. }
  { intros ->. exact Hin. }
  cbn [bind].
  assert (Hl' : live s' n).
  { split; auto. unfold attrs_of in Hatn. injection Hatn as H1 H2 _ _ _ _ _. unfold in_use. rewrite H1, H2. lia. }
  rewrite asrt_true by (eapply sanity_ok; eauto). cbn [bind].
  exists s', n, K', rk'. split; [reflexivity|]. split; [exact HI'|]. split; [exact Hn0|]. split.
  { unfold view. rewrite Hnu, andb_false_r. reflexivity. }
  split; [|auto]. intro m. destruct (Nat.eqb_spec m n) as [->|E]; [rewrite live_view, Hatn by auto; reflexivity|].
  apply attrs_view. auto.
Qed.

End Create2.
