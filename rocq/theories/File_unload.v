(* Recording of loaded files: unloading. *)
From Verif Require Import Base Big_model Big_set Big_spec Big_inv Big_lookup Big_links Big_field Big_create Big_delete Big_range Big_hist Big_props
  Map_model File_model File_spec File_proof File_load File_main File_more.

(* the file records with a given name *)
Definition named (name : nat -> Z) (s : st) (nm : Z) (f : nat) : Prop :=
  live s f /\ b_alloc (bigs s f) = FILE /\ name (b_priv (bigs s f)) = nm.

Lemma pages_between x y j : x mod PAGE = 0 -> y mod PAGE = 0 -> 0 < x < y -> 0 <= j < PAGENUM y - PAGENUM x -> x <= PAGE * (PAGENUM x + j) < y.
Proof. unfold PAGENUM, PAGE. intros Hx Hy H Hj. apply Z.div_exact in Hx; [|lia]. apply Z.div_exact in Hy; [|lia]. lia. Qed.
Lemma sides x1 x2 l1 l2 h1 h2 : x1 < x2 -> l1 < l2 -> l2 <= h1 -> h1 < h2 ->
  (forall a, x1 <= a < x2 -> l1 <= a < l2 -> False) -> (forall a, x1 <= a < x2 -> h1 <= a < h2 -> False) ->
  (forall a, x1 <= a < x2 -> ~ l2 <= a < h1) -> x2 <= l1 \/ h2 <= x1.
Proof.
  intros A B C D H1 H2 H3. specialize (H1 (Z.max x1 l1)). specialize (H2 (Z.max x1 l1)). specialize (H3 (Z.max x1 l1)). lia.
Qed.

Section P.
Variables (nb : nat) (biggest : Z) (dbg : bool) (al : nat -> Z) (cur max : Z) (name : nat -> Z) (handle : nat -> bool).
Notation R := (reach nb biggest dbg al cur max).

Lemma files_apart s f g : files_ok s -> live s f -> live s g -> b_alloc (bigs s f) = FILE -> b_alloc (bigs s g) = FILE -> anc s f g -> f = g.
Proof.
  intros HF Lf Lg Af Ag H. destruct (HF g Lg Ag) as (_ & P1 & P2 & P3). destruct H as [|g Hp H]; auto. exfalso.
  apply anc_of_root in H; auto. congruence.
Qed.

Lemma files_ok_gone s s' D : R s -> files_ok s -> gone s s' D -> (forall x, In x D -> exists f, live s f /\ b_alloc (bigs s f) = FILE /\ anc s f x) -> files_ok s'.
Proof.
  intros HR HF HG HD n Ln An. pose proof (gone_attrs _ _ _ _ HG Ln) as E. injection E; intros E7 E6 E5 E4 E3 E2 E1.
  apply (gone_live _ _ _ _ HG) in Ln. destruct Ln as [Ln Hn]. rewrite E4 in An. destruct (HF n Ln An) as (P0 & P1 & P2 & P3).
  destruct (big_forest_always nb biggest dbg al cur max s HR) as [FO _].
  destruct (fo_parent _ FO n Ln) as [|Lp]; [congruence|].
  assert (Lp' : live s' (b_parent (bigs s n))).
  { apply (gone_live _ _ _ _ HG). split; auto. intro Hi. destruct (HD _ Hi) as (f & Lf & Af & Hanc). apply anc_of_root in Hanc; auto. subst f. congruence. }
  pose proof (gone_attrs _ _ _ _ HG Lp') as Ep. injection Ep; intros. rewrite E3, E6. repeat split; congruence.
Qed.

Lemma unload_loop nm : forall fuel k s, R s -> files_ok s -> (forall f, named name s nm f -> handle (b_priv (bigs s f)) = true) -> (1 <= k)%nat ->
  exists s' D, unload_from nb biggest dbg name handle fuel k s nm = Ok s' /\ R s' /\ files_ok s' /\ gone s s' D /\
    (forall x, In x D <-> live s x /\ exists f, named name s nm f /\ (k <= f < k + fuel)%nat /\ anc s f x).
Proof.
  induction fuel as [|fuel IH]; intros k s HR HF HH Hk.
  - exists s, []. split; auto. split; auto. split; auto. split; [apply gone_nil|]. intro x. split; [intros []|]. intros (_ & f & _ & X & _). lia.
  - cbn [unload_from].
    assert (Hskip : (forall f, named name s nm f -> f <> k) ->
      exists s' D, unload_from nb biggest dbg name handle fuel (S k) s nm = Ok s' /\ R s' /\ files_ok s' /\ gone s s' D /\
      (forall x, In x D <-> live s x /\ exists f, named name s nm f /\ (k <= f < k + S fuel)%nat /\ anc s f x)).
    { intro Hnk. destruct (IH (S k) s HR HF HH) as (s' & D & E & R' & F' & G & HD); [lia|]. exists s', D. split; auto. split; auto. split; auto. split; auto.
      intro x. rewrite HD. split; intros (Lx & f & Nf & Hf & Af); split; auto; exists f; (split; [auto|split; [|auto]]); [lia|].
      specialize (Hnk f Nf). lia. }
    destruct (in_use (bigs s k)) eqn:Eu; [|cbn [andb bind]; apply Hskip; intros f [[_ Lf] _] ->; congruence].
    assert (Lk : live s k) by (split; [lia|auto]).
    destruct (Nat.eqb_spec (b_alloc (bigs s k)) FILE) as [Ak|Ak]; [|cbn [andb bind]; apply Hskip; intros f (_ & Af & _) ->; congruence].
    cbn [andb]. destruct (HF k Lk Ak) as (P0 & P1 & P2 & P3). destruct (Nat.eqb_spec (b_priv (bigs s k)) 0) as [|_]; [congruence|].
    destruct (Z.eqb_spec (name (b_priv (bigs s k))) nm) as [En|En]; [|cbn [bind]; apply Hskip; intros f (_ & _ & Hf) ->; congruence].
    assert (Nk : named name s nm k) by (split; auto). rewrite (HH k Nk). cbn [negb].
    destruct (big_forest_always nb biggest dbg al cur max s HR) as [FO LK].
    pose proof (fo_range _ FO k Lk) as Gk.
    destruct (reach_good _ _ _ _ _ _ _ HR) as [(K & rk & HI) _].
    assert (Hout : forall n, outermost s false (b_begin (bigs s k)) FILE n -> n = k).
    { intros n (Ln & Cn & An & Hn). assert (X : anc s n k) by (apply Hn; auto; unfold covers; lia). apply (files_apart s n k); auto. }
    assert (Hns : ~ anc s k (start s)).
    { intro X. assert (Y : In (start s) (K 0%nat)) by apply (I_start _ _ _ _ HI). apply (I_kid _ _ _ _ HI) in Y. destruct Y as [_ Y].
      apply anc_of_root in X; auto. subst k. congruence. }
    destruct (big_delete_at_exact nb biggest dbg al cur max s (b_begin (bigs s k)) FILE HR) as [[_ X]|(s1 & n & D1 & E & Ho & R1 & Hsub & G1)].
    { intros n Hn. rewrite (Hout n Hn). auto. }
    { exfalso. apply (X k Lk); auto. unfold covers. lia. }
    rewrite (Hout n Ho) in Hsub. clear n Ho. rewrite E. cbn [bind].
    assert (F1 : files_ok s1).
    { apply (files_ok_gone s s1 D1 HR HF G1). intros x Hx. apply Hsub in Hx. exists k. tauto. }
    assert (Hnm : forall f, named name s1 nm f <-> named name s nm f /\ f <> k).
    { intro f. split.
      - intros (Lf & Af & Nf). pose proof (gone_attrs _ _ _ _ G1 Lf) as Ea. injection Ea; intros E7 E6 E5 E4 E3 E2 E1.
        apply (gone_live _ _ _ _ G1) in Lf. destruct Lf as [Lf Hf]. split; [split; [auto|split; congruence]|]. intros ->. apply Hf, Hsub. split; auto. constructor.
      - intros ((Lf & Af & Nf) & Hne). assert (Lf1 : live s1 f).
        { apply (gone_live _ _ _ _ G1). split; auto. intro Hi. apply Hsub in Hi. destruct Hi as [_ Hi]. apply (files_apart s k f) in Hi; auto. }
        pose proof (gone_attrs _ _ _ _ G1 Lf1) as Ea. injection Ea; intros E7 E6 E5 E4 E3 E2 E1. split; [auto|split; congruence]. }
    assert (Hcl : forall y, live s1 y -> b_parent (bigs s1 y) <> 0%nat -> live s1 (b_parent (bigs s1 y))).
    { destruct (big_forest_always nb biggest dbg al cur max s1 R1) as [FO1 _]. intros y Ly Hy. destruct (fo_parent _ FO1 y Ly); [congruence|auto]. }
    destruct (IH (S k) s1 R1 F1) as (s' & D2 & E2 & R' & F' & G2 & HD2); [|lia|].
    { intros f Nf. pose proof Nf as (Lf & _). apply Hnm in Nf. destruct Nf as [Nf _]. pose proof (gone_attrs _ _ _ _ G1 Lf) as Ea. injection Ea; intros E7 E6 E5 E4 E3 E2 E1.
      rewrite E6. apply HH; auto. }
    exists s', (D1 ++ D2). split; auto. split; auto. split; auto.
    split; [eapply gone_app; eauto; intros x Hx; apply HD2 in Hx; apply Hx|].
    intro x. rewrite in_app_iff, (Hsub x), HD2. split.
    + intros [[Lx Ax]|(Lx & f & Nf & Hf & Af)].
      * split; auto. exists k. split; auto. split; [lia|auto].
      * split; [apply (gone_live _ _ _ _ G1) in Lx; tauto|]. exists f. split; [apply Hnm; auto|]. split; [lia|].
        apply (anc_gone s s1 D1 f x G1 Lx Hcl). auto.
    + intros (Lx & f & Nf & Hf & Af). destruct (Nat.eq_dec f k) as [->|Hne]; [left; auto|]. right.
      assert (Lx1 : live s1 x).
      { apply (gone_live _ _ _ _ G1). split; auto. intro Hi. apply Hsub in Hi. destruct Hi as [_ Hi]. pose proof Nf as (Lf & Aff & _).
        assert (Cx : covers s x (b_begin (bigs s x))) by (pose proof (fo_range _ FO x Lx); unfold covers; lia).
        pose proof (covers_anc _ _ _ _ HI _ _ _ Af Lx Cx) as C1. pose proof (covers_anc _ _ _ _ HI _ _ _ Hi Lx Cx) as C2.
        destruct (chain _ _ _ _ HI f k _ Lf Lk C1 C2) as [Y|Y]; [apply (files_apart s f k) in Y|apply (files_apart s k f) in Y]; auto. }
      split; auto. exists f. split; [apply Hnm; auto|]. split; [lia|]. apply (anc_gone s s1 D1 f x G1 Lx1 Hcl). auto.
Qed.

Lemma unload_ok s nm : R s -> files_ok s -> (forall f, named name s nm f -> handle (b_priv (bigs s f)) = true) ->
  exists s' D, unload nb biggest dbg name handle s nm = Ok s' /\ R s' /\ files_ok s' /\ gone s s' D /\
    (forall x, In x D <-> live s x /\ exists f, named name s nm f /\ anc s f x).
Proof.
  intros HR HF HH. destruct (unload_loop nm (nb - 1) 1 s HR HF HH (le_n _)) as (s' & D & E & R' & F' & G & HD).
  exists s', D. split; auto. split; auto. split; auto. split; auto. intro x. rewrite HD.
  destruct (reach_good _ _ _ _ _ _ _ HR) as [(K & rk & HI) _].
  split; intros (Lx & f & Nf & H); split; auto; exists f; [tauto|]. split; auto. split; auto.
  destruct Nf as (Lf & _). pose proof (I_bnd _ _ _ _ HI f Lf). destruct Lf. lia.
Qed.

End P.

(* ------------------------------------------------------------ the hole between two mappings *)
Section Q.
Variables (nb : nat) (biggest : Z) (dbg : bool) (al : nat -> Z) (cur max : Z).
Notation R := (reach nb biggest dbg al cur max).
Lemma plug_ok s lo hi : R s -> toplevel s lo -> toplevel s hi -> b_alloc (bigs s hi) = MMAP -> hi <> start s ->
  b_end (bigs s lo) < b_begin (bigs s hi) -> (forall x a, live s x -> covers s x a -> ~ b_end (bigs s lo) <= a < b_begin (bigs s hi)) ->
  b_end (bigs s hi) - b_begin (bigs s lo) <= biggest -> b_end (bigs s hi) <= W64 ->
  exists s1 s' D, plug nb biggest dbg s lo hi true = Ok s' /\ R s' /\ subtree s hi D /\ gone s s1 D /\ resized s1 s' lo (b_begin (bigs s lo)) (b_end (bigs s hi)).
Proof.
  intros HR [Ll Pl] [Lh Ph] Ah Hst Hlt Hgap Hsz HW. destruct (big_forest_always nb biggest dbg al cur max s HR) as [FO _].
  destruct (reach_good _ _ _ _ _ _ _ HR) as [(K & rk & HI) _].
  pose proof (fo_range _ FO lo Ll) as Gl. pose proof (fo_range _ FO hi Lh) as Gh.
  pose proof (fo_aligned _ FO lo Ll Pl) as [Al1 Al2]. pose proof (fo_aligned _ FO hi Lh Ph) as [Ah1 Ah2].
  unfold plug. rewrite asrt_true by (apply Z.ltb_lt; auto). cbn [bind].
  rewrite Z.mod_small by (clear - Gl Gh Hlt HW; lia). destruct (Z.ltb_spec biggest (b_begin (bigs s hi) - b_end (bigs s lo))) as [X|_]; [clear - X Gl Gh Hlt Hsz; lia|].
  assert (Hfree : forallb (fun q => Nat.eqb (pidx s q) 0) (zrange (PAGENUM (b_end (bigs s lo))) (PAGENUM (b_begin (bigs s hi)) - PAGENUM (b_end (bigs s lo)))) = true).
  { apply forallb_forall. intros q Hq. apply Nat.eqb_eq. destruct (Nat.eq_dec (pidx s q) 0) as [|Hne]; auto. exfalso.
    destruct (I_pix _ _ _ _ HI q) as (Hn & Hsp & _). destruct Hn as [|Hn]; [congruence|].
    destruct Hsp as [|[S1 S2]]; [congruence|]. unfold zrange in Hq. apply in_map_iff in Hq. destruct Hq as (j & <- & Hj). apply in_seq in Hj.
    apply (Hgap (pidx s (PAGENUM (b_end (bigs s lo)) + Z.of_nat j)) (PAGE * (PAGENUM (b_end (bigs s lo)) + Z.of_nat j)) Hn); [unfold covers; clear - S1 S2; unfold PAGE in *; lia|].
    apply pages_between; auto; clear - Hlt Gl Hj; lia. }
  rewrite Hfree. cbn [negb].
  assert (Hne : hi <> lo) by (intros ->; clear - Gl Gh Hlt; lia).
  assert (Hout : forall n, outermost s false (b_begin (bigs s hi)) MMAP n -> n = hi).
  { intros n (Ln & Cn & An & Hn). assert (X : anc s n hi) by (apply Hn; auto; unfold covers; clear - Gh; lia). apply anc_of_root in X; auto. }
  assert (Hns : ~ anc s hi (start s)).
  { intro X. assert (Y : In (start s) (K 0%nat)) by apply (I_start _ _ _ _ HI). apply (I_kid _ _ _ _ HI) in Y. destruct Y as [_ Y]. apply anc_of_root in X; auto. }
  destruct (big_delete_at_exact nb biggest dbg al cur max s (b_begin (bigs s hi)) MMAP HR) as [[_ X]|(s1 & n & D & E & Ho & R1 & Hsub & G1)].
  { intros n Hn. rewrite (Hout n Hn). auto. }
  { exfalso. apply (X hi Lh); auto. unfold covers. clear - Gh. lia. }
  rewrite (Hout n Ho) in Hsub. clear n Ho. rewrite E. cbn [bind]. rewrite asrt_true by reflexivity. cbn [bind].
  assert (Ll1 : live s1 lo).
  { apply (gone_live _ _ _ _ G1). split; auto. intro Hi. apply Hsub in Hi. destruct Hi as [_ Hi]. apply anc_of_root in Hi; auto. }
  pose proof (gone_attrs _ _ _ _ G1 Ll1) as El. injection El; intros L7 L6 L5 L4 L3 L2 L1.
  destruct (big_forest_always nb biggest dbg al cur max s1 R1) as [FO1 _].
  assert (Hgr : grow_end biggest s1 lo (b_end (bigs s hi))).
  { split; [auto|]. split; [clear - L2 Gh Gl Hlt; lia|]. split; [|split; [clear - L1 Hsz Gl; lia|]].
    - constructor.
      + clear - L1 L2 Gl Gh Hlt HW Hsz; lia.
      + clear - L1 L2 Gl Gh Hlt HW Hsz; lia.
      + intro X. congruence.
      + intros c Lc Pc. pose proof (fo_inside _ FO1 c Lc) as X. rewrite Pc in X. specialize (X (proj1 Ll)). clear - X L1 L2 Gl Gh Hlt; lia.
      + intros x Lx Hx Px. pose proof (gone_attrs _ _ _ _ G1 Lx) as Ex. injection Ex; intros X7 X6 X5 X4 X3 X2 X1.
        apply (gone_live _ _ _ _ G1) in Lx. destruct Lx as [Lx HxD]. assert (Hxh : x <> hi).
        { intros ->. apply HxD, Hsub. split; auto. constructor. }
        assert (Px0 : b_parent (bigs s x) = 0%nat) by congruence.
        pose proof (fo_range _ FO x Lx) as Gx.
        assert (N1 : ~ overlap s x lo) by (apply (fo_sib _ FO); auto; congruence).
        assert (N2 : ~ overlap s x hi) by (apply (fo_sib _ FO); auto; congruence).
        rewrite X1, X2, L1. apply (sides _ _ _ (b_end (bigs s lo)) (b_begin (bigs s hi)) _); try (clear - Gx Gl Gh Hlt; lia).
        * intros a Ha Hb. apply N1. exists a. unfold covers. auto.
        * intros a Ha Hb. apply N2. exists a. unfold covers. auto.
        * intros a Ha. apply (Hgap x a Lx). unfold covers. clear - Ha; lia.
      + intros _. rewrite L1. auto.
    - left. rewrite L1, L2. apply Z.div_exact in Al2; [|unfold PAGE; lia]. unfold RDOWN. clear - Al2 Gl. lia. }
  unfold adjust_end. rewrite L2. destruct (Z.ltb_spec (b_end (bigs s hi)) (b_end (bigs s lo))) as [X|_]; [clear - X Gl Gh Hlt; lia|].
  destruct (Z.ltb_spec (b_end (bigs s lo)) (b_end (bigs s hi))) as [_|X]; [|clear - X Gl Gh Hlt; lia].
  destruct (big_extend_exact nb biggest dbg al cur max s1 lo _ R1 Hgr) as (s' & E' & R' & HRz). rewrite L1 in HRz.
  exists s1, s', D. auto.
Qed.
End Q.
