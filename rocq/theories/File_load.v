(* Recording of loaded files: the calls made while one is loaded. *)
From Verif Require Import Base Big_model Big_set Big_spec Big_inv Big_lookup Big_links Big_field Big_create Big_delete Big_hist Big_props
  Map_model File_model File_spec File_proof.

Lemma fop_same {A} (g : A -> Z * Z) (l : list A) x y a :
  ForallOrdPairs (fun x y => apart (g x) (g y)) l -> In x l -> In y l ->
  fst (g x) <= a < fst (g x) + snd (g x) -> fst (g y) <= a < fst (g y) + snd (g y) -> x = y.
Proof.
  intros H Hx Hy C1 C2. destruct (ForallOrdPairs_In H x y Hx Hy) as [|[D|D]]; auto; exfalso; unfold apart in D; lia.
Qed.
Lemma fop_map {A B} (Q : B -> B -> Prop) (g : A -> B) l : ForallOrdPairs Q (map g l) -> ForallOrdPairs (fun x y => Q (g x) (g y)) l.
Proof.
  induction l as [|x l IH]; cbn; intro H; [constructor|]. inversion H as [|? ? F P]; subst. constructor; auto.
  apply Forall_forall. intros y Hy. rewrite Forall_forall in F. apply F. apply in_map. auto.
Qed.

Section P.
Variables (nb : nat) (biggest : Z) (dbg : bool) (al : nat -> Z) (cur max : Z).
Notation R := (reach nb biggest dbg al cur max).
Notation added := (added nb biggest dbg al cur max).

Lemma old_not_in s0 s l n : added s0 s l -> live s0 n -> ~ In n (map fst l).
Proof.
  intros A L Hi. apply in_map_iff in Hi. destruct Hi as ([n' t] & E & Hi). cbn [fst] in E. subst n'.
  destruct (ad_new _ _ _ _ _ _ _ _ _ A n t Hi) as (_ & V & _). apply view_live in L. congruence.
Qed.
Lemma old_same s0 s l n : added s0 s l -> live s0 n -> view s n = view s0 n.
Proof. intros A L. apply (ad_old _ _ _ _ _ _ _ _ _ A). eapply old_not_in; eauto. Qed.
Lemma attrs_same s0 s n : live s0 n -> view s n = view s0 n -> attrs_of (bigs s n) = attrs_of (bigs s0 n) /\ live s n.
Proof. intros L E. rewrite (live_view s0) in E by auto. pose proof (some_live _ _ _ E) as L2. rewrite live_view in E by auto. split; [congruence|auto]. Qed.

Lemma cover_cases s0 s l m e x a : added s0 s l -> R s0 -> clear_for s0 m e -> live s x -> covers s x a -> b_begin (bigs s0 m) <= a < e ->
  x = m \/ exists t, In (x, t) l /\ a_begin t <= a < a_end t.
Proof.
  intros A HR0 HC Lx Cx Ha. destruct (added_live _ _ _ _ _ _ _ _ _ x A Lx) as [(t & Hi & V)|(Hn & L0 & V)].
  - right. exists t. split; auto. destruct (view_fields _ _ _ V) as (_ & E1 & E2 & _). unfold covers in Cx. lia.
  - left. apply (only_root nb biggest dbg al cur max s0 m e HR0 HC x a L0); auto.
    destruct (attrs_same s0 s x L0 V) as [E _]. injection E; intros. unfold covers in *. lia.
Qed.

Lemma find_unique s n a A : R s -> live s n -> covers s n a -> b_alloc (bigs s n) = A ->
  (forall x, live s x -> covers s x a -> b_alloc (bigs s x) = A -> x = n) -> find_from_root nb s a A false = Ok n.
Proof.
  intros HR L C E U. destruct (big_find_by_allocator nb biggest dbg al cur max s a A false HR) as (r & F & [[-> H]|(L2 & C2 & H & _)]).
  - exfalso. apply (H n L C). exact E.
  - rewrite F. f_equal. apply U; auto.
Qed.
Lemma find_nothing s a A : R s -> (forall x, live s x -> covers s x a -> b_alloc (bigs s x) <> A) -> find_from_root nb s a A false = Ok 0%nat.
Proof.
  intros HR U. destruct (big_find_by_allocator nb biggest dbg al cur max s a A false HR) as (r & F & [[-> H]|(L2 & C2 & H & _)]); auto.
  exfalso. apply (U r); auto.
Qed.

(* children in the extended table *)
Lemma kid_cases s0 s l p c : added s0 s l -> R s0 -> live s c -> b_parent (bigs s c) = p -> view s0 p = None -> p <> 0%nat ->
  exists t, In (c, t) l /\ a_parent t = p /\ b_begin (bigs s c) = a_begin t /\ b_end (bigs s c) = a_end t.
Proof.
  intros A HR0 L P V Hp. destruct (added_live _ _ _ _ _ _ _ _ _ c A L) as [(t & Hi & Vc)|(Hn & L0 & Vc)].
  - exists t. destruct (view_fields _ _ _ Vc) as (_ & E1 & E2 & E3 & _). split; auto. split; [congruence|auto].
  - exfalso. destruct (attrs_same s0 s c L0 Vc) as [E _]. injection E; intros _ _ _ _ E3 _ _.
    destruct (big_forest_always nb biggest dbg al cur max s0 HR0) as [FO _].
    destruct (fo_parent _ FO c L0) as [X|X]; [congruence|]. rewrite <- E3, P in X. apply view_live in X. congruence.
Qed.

Section One.
(* the state the records are added to; the mapping, the file's end, its record *)
Variables (s0 : st) (o : obj) (low lim data : Z) (m f : nat).
Hypothesis R0 : R s0.
Hypothesis FK : file_ok o low lim.
Let e := o_base o + lim.
Let B := b_begin (bigs s0 m).
Hypothesis HC : clear_for s0 m e.
Hypothesis HB : B <= o_base o + low.
Hypothesis HS : e - B <= biggest.
Hypothesis HD : forall g, In g (o_segs o) -> o_base o + fst g = data -> fst g + snd g = lim.

Definition segt (g : Z * Z) : attrs := mkAttrs (lo_of (o_base o) g) (hi_of (o_base o) g) f SEGM (if lo_of (o_base o) g =? data then SYMB else 0%nat) 0 0.
Definition sect (c : Z * Z) (k : nat) : attrs := mkAttrs (lo_of (o_base o) c) (hi_of (o_base o) c) k SECT SYMB 0 0.
Definition segrec (x : (Z * Z) * nat) : nat * attrs := (snd x, segt (fst x)).
Definition secrec (x : (Z * Z) * (nat * nat)) : nat * attrs := (snd (snd x), sect (fst x) (fst (snd x))).
Definition filet : attrs := mkAttrs B e m FILE SEGM 0 0.
Definition recs (sg : list ((Z * Z) * nat)) (sc : list ((Z * Z) * (nat * nat))) : list (nat * attrs) :=
  (f, filet) :: map segrec sg ++ map secrec sc.

Lemma m0 : live s0 m /\ m <> 0%nat /\ 0 < B.
Proof.
  destruct HC as (L & _). split; auto. split; [apply L|]. destruct (big_forest_always nb biggest dbg al cur max s0 R0) as [FO _].
  pose proof (fo_range _ FO m L). unfold B. lia.
Qed.

Lemma rec_cases sg sc x t : In (x, t) (recs sg sc) ->
  (x = f /\ t = filet) \/ (exists g, In (g, x) sg /\ t = segt g) \/ (exists c k, In (c, (k, x)) sc /\ t = sect c k).
Proof.
  unfold recs. intros [H|H]; [injection H as <- <-; auto|]. right. apply in_app_or in H. destruct H as [H|H]; apply in_map_iff in H.
  - destruct H as ([g n] & E & H). injection E as <- <-. left. eauto.
  - destruct H as ([c [k n]] & E & H). injection E as <- <-. right. eauto.
Qed.
Lemma f_in sg sc : In (f, filet) (recs sg sc).
Proof. left. auto. Qed.
Lemma seg_in sg sc g n : In (g, n) sg -> In (n, segt g) (recs sg sc).
Proof. intro H. right. apply in_or_app. left. apply in_map_iff. exists (g, n). auto. Qed.

Lemma in_ends g : In g (o_segs o) -> B <= o_base o + fst g /\ o_base o + fst g + snd g <= e /\ 0 < snd g.
Proof.
  intro Hg. destruct FK as [[_ L] [_ M] _ S _ _ _]. specialize (L g Hg). specialize (M g Hg). specialize (S g Hg). unfold e. lia.
Qed.

Lemma f_facts s l : added s0 s l -> In (f, filet) l -> live s f /\ f <> 0%nat /\ view s0 f = None /\
  b_begin (bigs s f) = B /\ b_end (bigs s f) = e /\ b_parent (bigs s f) = m /\ b_alloc (bigs s f) = FILE /\ f <> m.
Proof.
  intros A Hi. destruct (ad_new _ _ _ _ _ _ _ _ _ A f filet Hi) as (N & V0 & V). destruct (view_fields _ _ _ V) as (L & E1 & E2 & E3 & E4 & _).
  cbn in *. repeat (split; [auto|]). intros ->. destruct m0 as (L0 & _). apply view_live in L0. congruence.
Qed.
Lemma m_facts s l : added s0 s l -> b_alloc (bigs s m) = MMAP /\ b_end (bigs s m) = b_end (bigs s0 m) /\ b_parent (bigs s m) = 0%nat.
Proof.
  intro A. destruct m0 as (L0 & _). destruct (attrs_same s0 s m L0 (old_same _ _ _ _ A L0)) as [E _]. injection E; intros.
  destruct HC as (_ & P & Q & _). repeat split; congruence.
Qed.

Lemma segment_step s sg g : added s0 s (recs sg []) -> In g (o_segs o) -> (forall x, In x sg -> apart (fst x) g) -> has_free nb s ->
  exists s' n, define_segment nb biggest dbg s (o_base o) data g = Ok s' /\ added s0 s' (recs (sg ++ [(g, n)]) []) /\
    (forall x, x <> n -> view s' x = view s x).
Proof.
  intros A Hg Hap Hf. destruct (in_ends g Hg) as (G1 & G2 & G3). destruct m0 as (Lm & Nm & PB).
  destruct (f_facts s _ A (f_in _ _)) as (Lf & Nf & V0f & F1 & F2 & F3 & F4 & Ffm).
  destruct (m_facts s _ A) as (M1 & M2 & M3).
  set (a := o_base o + fst g) in *.
  assert (F : find_from_root nb s a FILE false = Ok f).
  { apply find_unique; auto; [apply (ad_R _ _ _ _ _ _ _ _ _ A)|unfold covers; lia|].
    intros x Lx Cx Ex. destruct (cover_cases s0 s _ m e x a A R0 HC Lx Cx) as [->|(t & Hi & _)]; [fold B; lia|rewrite M1 in Ex; discriminate|].
    destruct (ad_new _ _ _ _ _ _ _ _ _ A x t Hi) as (_ & _ & V). destruct (view_fields _ _ _ V) as (_ & _ & _ & _ & E4 & _).
    destruct (rec_cases _ _ _ _ Hi) as [[-> _]|[(g2 & _ & ->)|(c & k & [] & _)]]; auto. rewrite Ex in E4. discriminate. }
  assert (Hfit : fits s f a (a + snd g)).
  { split; [lia|]. split; [destruct (Nat.eqb_spec f 0); [congruence|]; split; [auto|lia]|].
    intros c Lc Pc. destruct (kid_cases s0 s _ f c A R0 Lc Pc V0f Nf) as (t & Hi & Pt & E1 & E2).
    destruct (rec_cases _ _ _ _ Hi) as [[-> ->]|[(g2 & Hg2 & ->)|(c2 & k & [] & _)]].
    - cbn in Pt. congruence.
    - rewrite E1, E2. cbn. specialize (Hap _ Hg2). cbn [fst] in Hap. unfold apart in Hap. unfold lo_of, hi_of, a. lia. }
  destruct (added_create nb biggest dbg al cur max s0 s (recs sg []) f a (snd g) SEGM A Hf ltac:(lia) Nf Hfit) as (s1 & n & E & A1 & Vn & HV).
  assert (Hnn : ~ In n (map fst (recs sg []))).
  { intro Hi. apply in_map_iff in Hi. destruct Hi as ([n' t] & En & Hi). cbn [fst] in En. subst n'.
    pose proof (proj2 (proj2 (ad_new _ _ _ _ _ _ _ _ _ A n t Hi))). congruence. }
  assert (Hrec : recs (sg ++ [(g, n)]) [] = recs sg [] ++ [(n, segt g)]).
  { unfold recs. cbn [map]. rewrite !app_nil_r, map_app. reflexivity. }
  unfold define_segment. fold a. rewrite F. cbn [bind]. destruct (Nat.eqb_spec f 0) as [|_]; [congruence|]. rewrite E. cbn [bind].
  assert (Hin : In (n, mkAttrs a (a + snd g) f SEGM 0 0 0) (recs sg [] ++ [(n, mkAttrs a (a + snd g) f SEGM 0 0 0)])) by (apply in_or_app; right; left; auto).
  destruct (ad_new _ _ _ _ _ _ _ _ _ A1 n _ Hin) as (Nn & _ & Vn1). destruct (view_fields _ _ _ Vn1) as (Ln & E1 & E2 & E3 & E4 & E5 & E6 & E7). cbn in E1, E2, E3, E4, E5, E6, E7.
  destruct (Z.eqb_spec a data) as [Ed|Ed].
  - rewrite E3. destruct (f_facts s1 _ A1 (in_or_app _ _ _ (or_introl (f_in sg [])))) as (_ & _ & _ & _ & F2' & F3' & _).
    destruct (m_facts s1 _ A1) as (_ & M2' & _). rewrite F3', F2', M2'.
    rewrite !asrt_true; cycle 1.
    { apply Z.leb_le. destruct HC as (_ & _ & _ & _ & X & _). auto. }
    { destruct (Nat.eqb_spec m 0); [congruence|auto]. }
    { destruct (Nat.eqb_spec f 0); [congruence|auto]. }
    cbn [bind]. unfold adjust_end. rewrite E2. assert (Ee : a + snd g = e).
    { specialize (HD g Hg Ed). unfold e, a. lia. }
    rewrite Ee, Z.ltb_irrefl. cbn [bind].
    eexists. exists n. split; [reflexivity|]. rewrite Hrec. split.
    + pose proof (added_sub nb biggest dbg al cur max s0 s1 _ n _ SYMB A1 Hin) as X. rewrite upd_last in X by auto.
      cbn [a_begin a_end a_parent a_alloc a_priv a_subpriv] in X. unfold segt, lo_of, hi_of. fold a. rewrite (proj2 (Z.eqb_eq _ _) Ed). exact X.
    + intros x Hx. rewrite <- HV by auto.
      destruct (reach_good _ _ _ _ _ _ _ (ad_R _ _ _ _ _ _ _ _ _ A1)) as [(K & rk & HI) _].
      destruct (set_sub_ok nb al s1 K rk n SYMB (b_subpriv (bigs s1 n)) HI Ln) as [_ X]. rewrite X. destruct (Nat.eqb_spec x n); congruence.
  - exists s1, n. split; auto. rewrite Hrec. split; auto. unfold segt, lo_of, hi_of. fold a. rewrite (proj2 (Z.eqb_neq _ _) Ed). exact A1.
Qed.

Lemma segments_loop : forall l sg s, map fst sg ++ l = o_segs o -> added s0 s (recs sg []) -> (forall k, spare nb s (length l + k) ->
  exists s' ids, each (fun s g => define_segment nb biggest dbg s (o_base o) data g) s l = Ok s' /\ length ids = length l /\
    added s0 s' (recs (sg ++ combine l ids) []) /\ spare nb s' k).
Proof.
  induction l as [|g l IH]; intros sg s El A k Hsp.
  - exists s, []. cbn. rewrite app_nil_r. auto.
  - assert (Hg : In g (o_segs o)) by (rewrite <- El; apply in_or_app; right; left; auto).
    assert (Hap : forall x, In x sg -> apart (fst x) g).
    { intros x Hx. pose proof (fk_segs_apart _ _ _ FK) as P. rewrite <- El in P. clear - P Hx.
      apply in_map with (f := fst) in Hx. induction (map fst sg) as [|y r IH]; [destruct Hx|]. inversion P as [|? ? Fy Pr]; subst.
      destruct Hx as [<-|Hx]; [|auto]. rewrite Forall_forall in Fy. apply Fy. apply in_or_app. right. left. auto. }
    destruct (segment_step s sg g A Hg Hap (spare_free _ _ _ Hsp)) as (s1 & n & E & A1 & HV).
    pose proof (spare_less _ _ s1 _ n Hsp HV) as Hsp1.
    destruct (IH (sg ++ [(g, n)]) s1) with (k := k) as (s' & ids & E2 & Hl & A2 & Hsp2); auto.
    { rewrite map_app. cbn. rewrite <- app_assoc. exact El. }
    exists s', (n :: ids). cbn [each bind length combine]. rewrite E. cbn [bind]. split; [exact E2|]. split; [auto|].
    rewrite <- app_assoc in A2. auto.
Qed.

Lemma section_step s sg sc c : map fst sg = o_segs o -> added s0 s (recs sg sc) -> 0 < snd c -> (exists g, In g (o_segs o) /\ inside c g) ->
  (forall x, In x sc -> apart (fst x) c) -> has_free nb s ->
  exists s' n g k, define_section nb biggest dbg s (o_base o) c = Ok s' /\ In (g, k) sg /\ inside c g /\ added s0 s' (recs sg (sc ++ [(c, (k, n))])) /\
    (forall x, x <> n -> view s' x = view s x).
Proof.
  intros Esg A Hc (g & Hg & Hin) Hap Hf. destruct (in_ends g Hg) as (G1 & G2 & G3). destruct m0 as (Lm & Nm & PB).
  destruct (m_facts s _ A) as (M1 & M2 & M3).
  destruct (f_facts s _ A (f_in _ _)) as (Lf & Nf & V0f & F1 & F2 & F3 & F4 & Ffm).
  assert (Hk : exists k, In (g, k) sg). { rewrite <- Esg in Hg. apply in_map_iff in Hg. destruct Hg as ([g' k] & E & Hg). cbn in E. subst. eauto. }
  destruct Hk as (k & Hk). set (a := o_base o + fst c) in *. unfold inside in Hin.
  assert (Ha : B <= a < e) by (unfold a; lia).
  assert (Hcov : forall x, live s x -> covers s x a -> x = m \/ exists t, In (x, t) (recs sg sc) /\ a_begin t <= a < a_end t /\ b_alloc (bigs s x) = a_alloc t).
  { intros x Lx Cx. destruct (cover_cases s0 s _ m e x a A R0 HC Lx Cx Ha) as [->|(t & Hi & Ct)]; auto. right. exists t. split; auto. split; auto.
    destruct (ad_new _ _ _ _ _ _ _ _ _ A x t Hi) as (_ & _ & V). destruct (view_fields _ _ _ V) as (_ & _ & _ & _ & E4 & _). auto. }
  assert (F0 : find_from_root nb s a SECT false = Ok 0%nat).
  { apply find_nothing; [apply (ad_R _ _ _ _ _ _ _ _ _ A)|]. intros x Lx Cx Ex.
    destruct (Hcov x Lx Cx) as [->|(t & Hi & Ct & Et)]; [rewrite M1 in Ex; discriminate|].
    destruct (rec_cases _ _ _ _ Hi) as [[-> ->]|[(g2 & Hg2 & ->)|(c2 & k2 & Hc2 & ->)]]; try (rewrite Ex in Et; discriminate).
    specialize (Hap _ Hc2). cbn [fst] in Hap. unfold apart in Hap. cbn in Ct. unfold lo_of, hi_of in Ct. unfold a in Ct. lia. }
  destruct (ad_new _ _ _ _ _ _ _ _ _ A k (segt g) (seg_in sg sc g k Hk)) as (Nk & V0k & Vk).
  destruct (view_fields _ _ _ Vk) as (Lk & K1 & K2 & K3 & K4 & _). cbn in K1, K2, K3, K4. unfold lo_of, hi_of in K1, K2.
  assert (F : find_from_root nb s a SEGM false = Ok k).
  { apply find_unique; auto; [apply (ad_R _ _ _ _ _ _ _ _ _ A)|unfold covers, a; lia|]. intros x Lx Cx Ex.
    destruct (Hcov x Lx Cx) as [->|(t & Hi & Ct & Et)]; [rewrite M1 in Ex; discriminate|].
    destruct (rec_cases _ _ _ _ Hi) as [[-> ->]|[(g2 & Hg2 & ->)|(c2 & k2 & Hc2 & ->)]]; try (rewrite Ex in Et; discriminate).
    pose proof (fk_segs_apart _ _ _ FK) as P. rewrite <- Esg in P. apply fop_map in P. cbn in Ct. unfold lo_of, hi_of, a in Ct.
    assert (X : (g2, x) = (g, k)); [|congruence].
    apply (fop_same fst sg _ _ (fst c) P Hg2 Hk); cbn [fst]; lia. }
  assert (Hfk : f <> k).
  { intro H. rewrite <- H, F4 in K4. discriminate. }
  assert (Hkm : k <> m) by (intros ->; apply view_live in Lm; congruence).
  assert (Hfit : fits s k a (a + snd c)).
  { split; [lia|]. split; [destruct (Nat.eqb_spec k 0); [congruence|]; split; [auto|unfold a; lia]|].
    intros c1 Lc Pc. destruct (kid_cases s0 s _ k c1 A R0 Lc Pc V0k Nk) as (t & Hi & Pt & E1 & E2).
    destruct (rec_cases _ _ _ _ Hi) as [[-> ->]|[(g2 & Hg2 & ->)|(c2 & k2 & Hc2 & ->)]]; cbn in Pt; try congruence.
    rewrite E1, E2. cbn. specialize (Hap _ Hc2). cbn [fst] in Hap. unfold apart in Hap. unfold lo_of, hi_of, a. lia. }
  destruct (added_create nb biggest dbg al cur max s0 s (recs sg sc) k a (snd c) SECT A Hf ltac:(unfold a in *; lia) Nk Hfit) as (s1 & n & E & A1 & Vn & HV).
  assert (Hnn : ~ In n (map fst (recs sg sc))).
  { intro Hi. apply in_map_iff in Hi. destruct Hi as ([n' t] & En & Hi). cbn [fst] in En. subst n'.
    pose proof (proj2 (proj2 (ad_new _ _ _ _ _ _ _ _ _ A n t Hi))). congruence. }
  assert (Hrec : recs sg (sc ++ [(c, (k, n))]) = recs sg sc ++ [(n, sect c k)]).
  { unfold recs. rewrite map_app. cbn [map app]. rewrite app_assoc. reflexivity. }
  assert (Hi : In (n, mkAttrs a (a + snd c) k SECT 0 0 0) (recs sg sc ++ [(n, mkAttrs a (a + snd c) k SECT 0 0 0)])) by (apply in_or_app; right; left; auto).
  destruct (ad_new _ _ _ _ _ _ _ _ _ A1 n _ Hi) as (Nn & _ & Vn1). destruct (view_fields _ _ _ Vn1) as (Ln & _).
  exists (set_sub s1 n SYMB (b_subpriv (bigs s1 n))), n, g, k. split; [|split; [auto|split; [exact Hin|split]]].
  - unfold define_section. rewrite (proj2 (Z.ltb_lt _ _) Hc). fold a. rewrite F0. cbn [bind]. cbn [Nat.eqb negb]. rewrite F. cbn [bind].
    destruct (Nat.eqb_spec k 0); [congruence|]. rewrite E. reflexivity.
  - rewrite Hrec. pose proof (added_sub nb biggest dbg al cur max s0 s1 _ n _ SYMB A1 Hi) as X. rewrite upd_last in X by auto. exact X.
  - intros x Hx. rewrite <- HV by auto.
    destruct (reach_good _ _ _ _ _ _ _ (ad_R _ _ _ _ _ _ _ _ _ A1)) as [(K & rk & HI) _].
    destruct (set_sub_ok nb al s1 K rk n SYMB (b_subpriv (bigs s1 n)) HI Ln) as [_ X]. rewrite X. destruct (Nat.eqb_spec x n); congruence.
Qed.

Lemma nonempty_app l1 l2 : nonempty (l1 ++ l2) = nonempty l1 ++ nonempty l2.
Proof. apply filter_app. Qed.

Lemma sections_loop sg : map fst sg = o_segs o -> forall l done sc s, done ++ l = o_secs o -> map fst sc = nonempty done -> added s0 s (recs sg sc) ->
  (forall x, In x sc -> exists g, In (g, fst (snd x)) sg /\ inside (fst x) g) ->
  spare nb s (length (nonempty l)) ->
  exists s' sc', each (fun s c => define_section nb biggest dbg s (o_base o) c) s l = Ok s' /\ map fst sc' = nonempty (o_secs o) /\
    (forall x, In x sc' -> exists g, In (g, fst (snd x)) sg /\ inside (fst x) g) /\ added s0 s' (recs sg sc').
Proof.
  intro Esg. induction l as [|c l IH]; intros done sc s El Esc A HP Hsp.
  - exists s, sc. cbn [each]. rewrite app_nil_r in El. subst done. auto.
  - cbn [each]. destruct (Z.ltb_spec 0 (snd c)) as [Hc|Hc].
    + assert (Hne : nonempty (c :: l) = c :: nonempty l) by (unfold nonempty; cbn [filter]; rewrite (proj2 (Z.ltb_lt _ _) Hc); auto).
      assert (Hall : nonempty (o_secs o) = map fst sc ++ c :: nonempty l) by (rewrite <- El, nonempty_app, Hne, Esc; auto).
      destruct (section_step s sg sc c Esg A Hc) as (s1 & n & g & k & E & Hk & Hin & A1 & HV).
      * apply (fk_secs _ _ _ FK). rewrite Hall. apply in_or_app. right. left. auto.
      * intros x Hx. pose proof (fk_secs_apart _ _ _ FK) as P. rewrite Hall in P. clear - P Hx.
        apply in_map with (f := fst) in Hx. induction (map fst sc) as [|y r IH]; [destruct Hx|]. inversion P as [|? ? Fy Pr]; subst.
        destruct Hx as [<-|Hx]; [|auto]. rewrite Forall_forall in Fy. apply Fy. apply in_or_app. right. left. auto.
      * rewrite Hne in Hsp. eapply spare_free. exact Hsp.
      * rewrite E. cbn [bind]. apply (IH (done ++ [c]) (sc ++ [(c, (k, n))]) s1).
        -- rewrite <- app_assoc. exact El.
        -- rewrite map_app, nonempty_app, Esc. cbn [map fst]. unfold nonempty at 3. cbn [filter]. rewrite (proj2 (Z.ltb_lt _ _) Hc). auto.
        -- exact A1.
        -- intros x Hx. apply in_app_or in Hx. destruct Hx as [Hx|[<-|[]]]; auto. exists g. auto.
        -- rewrite Hne in Hsp. cbn [length] in Hsp. exact (spare_less _ _ s1 _ n Hsp HV).
    + assert (Hn : (0 <? snd c) = false) by (apply Z.ltb_ge; auto).
      unfold define_section at 1. rewrite Hn. cbn [bind].
      assert (Hne : nonempty (c :: l) = nonempty l) by (unfold nonempty; cbn [filter]; rewrite Hn; auto).
      apply (IH (done ++ [c]) sc s); auto.
      * rewrite <- app_assoc. exact El.
      * rewrite nonempty_app, Esc. unfold nonempty at 3. cbn [filter]. rewrite Hn, app_nil_r. auto.
      * rewrite <- Hne. auto.
Qed.
End One.
End P.
