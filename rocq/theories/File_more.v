(* Recording of loaded files: loading, lookup afterwards, unloading. *)
From Verif Require Import Base Big_model Big_set Big_spec Big_inv Big_lookup Big_links Big_field Big_create Big_delete Big_range Big_hist Big_props
  Map_model File_model File_spec File_proof File_load File_main.

(* the break record, the first thing in the mapping above the file's end *)
Definition brk_above (biggest : Z) (s : st) (m brk : nat) (e : Z) : Prop :=
  live s brk /\ b_parent (bigs s brk) = m /\ e < b_begin (bigs s brk) /\ b_end (bigs s brk) - e <= biggest /\
  forall x, live s x -> x <> brk -> b_parent (bigs s x) = m -> b_end (bigs s brk) <= b_begin (bigs s x).

Lemma forall2_nth {A B} (P : A -> B -> Prop) l r i x y : Forall2 P l r -> nth_error l i = Some x -> nth_error r i = Some y -> P x y.
Proof. intro H. revert i. induction H as [|a b l r Hab H IH]; intros [|i]; cbn; try discriminate; [congruence|eauto]. Qed.
Lemma forall2_in_r {A B} (P : A -> B -> Prop) l r y : Forall2 P l r -> In y r -> exists x, In x l /\ P x y.
Proof. intro H. induction H as [|a b l r Hab H IH]; intros []; [subst; exists a; split; auto; left; auto|]. destruct (IH H0) as (x & Hx & Px). exists x. split; auto. right. auto. Qed.
Lemma forall2_in_l {A B} (P : A -> B -> Prop) l r x : Forall2 P l r -> In x l -> exists y, In y r /\ P x y.
Proof. intro H. induction H as [|a b l r Hab H IH]; intros []; [subst; exists b; split; auto; left; auto|]. destruct (IH H0) as (y & Hy & Py). exists y. split; auto. right. auto. Qed.
Lemma combine_same {A B} (l : list A) (r : list B) (Q : A -> A -> Prop) g1 k1 g2 k2 : ForallOrdPairs Q l ->
  In (g1, k1) (combine l r) -> In (g2, k2) (combine l r) -> (g1, k1) = (g2, k2) \/ Q g1 g2 \/ Q g2 g1.
Proof.
  intro H. revert r. induction H as [|a l Fa H IH]; intros [|b r]; cbn; try tauto. rewrite Forall_forall in Fa.
  intros [E1|H1] [E2|H2].
  - left. congruence.
  - injection E1 as -> ->. right. left. apply Fa. apply in_combine_l in H2. auto.
  - injection E2 as -> ->. right. right. apply Fa. apply in_combine_l in H1. auto.
  - apply (IH r); auto.
Qed.

Section P.
Variables (nb : nat) (biggest : Z) (dbg : bool) (al : nat -> Z) (cur max : Z).
Notation R := (reach nb biggest dbg al cur max).

Lemma mapping_of_root s m a : R s -> live s m -> b_parent (bigs s m) = 0%nat -> b_alloc (bigs s m) = MMAP -> b_priv (bigs s m) <> 0%nat ->
  covers s m a -> mapping_of nb dbg s a = Ok m.
Proof.
  intros HR L P A Q C. destruct (big_top_level_lookup nb biggest dbg al cur max s a HR) as (r & E & [[-> H]|(Lr & Pr & Cr)]).
  - exfalso. apply (H m L C).
  - assert (r = m).
    { destruct (Nat.eq_dec r m) as [|Hne]; auto. exfalso. destruct (big_forest_always nb biggest dbg al cur max s HR) as [FO _].
      apply (fo_sib _ FO r m Lr L Hne); [congruence|]. exists a. auto. }
    subst r. unfold mapping_of. rewrite E. cbn [bind]. destruct (Nat.eqb_spec m 0) as [X|_]; [destruct L; congruence|].
    rewrite A. cbn [Nat.eqb]. rewrite asrt_true by reflexivity. cbn [bind]. destruct (Nat.eqb_spec (b_priv (bigs s m)) 0); congruence.
Qed.

Definition fits_file (s : st) (o : obj) (low lim data : Z) (m : nat) : Prop :=
  file_ok o low lim /\ clear_for s m (o_base o + lim) /\ b_begin (bigs s m) <= o_base o + low /\
  o_base o + lim - b_begin (bigs s m) <= biggest /\
  (forall g, In g (o_segs o) -> o_base o + fst g = data -> fst g + snd g = lim) /\
  spare nb s (S (length (o_segs o) + length (nonempty (o_secs o)))).

Lemma load_to_core s o low lim data brkmap brk kernel m : R s -> fits_file s o low lim data m ->
  load nb biggest dbg s o data brkmap brk kernel =
  (let size := o_base o + lim - b_begin (bigs s m) in
   do s5 <- load_core nb biggest dbg s o data m size ;
   if Nat.eqb m brkmap then
     let e := b_begin (bigs s5 brkmap) + size in
     do _ <- asrt dbg (e <? b_begin (bigs s5 brk)) ;
     pre_extend nb biggest dbg s5 brk e
   else Ok s5).
Proof.
  intros HR (FK & HC & HB & HS & HD & Hsp). pose proof (low_lim _ _ _ FK) as Hl. pose proof (fk_pos _ _ _ FK) as Hp.
  destruct (m0 nb biggest dbg al cur max s o lim m HR HC) as (Lm & Nm & PB). pose proof HC as (_ & P & A & Q & He & _).
  rewrite load_unfold, (bounds_eq o low lim FK).
  rewrite asrt_true by (unfold NOLOW; destruct (Z.eqb_spec low (W64 - 1)); [lia|reflexivity]). cbn [bind].
  rewrite !(mapping_of_root s m); auto; [|unfold covers; lia|unfold covers; lia]. cbn [bind].
  destruct (Nat.eqb_spec m 0); [congruence|]. rewrite Nat.eqb_refl. cbn [bind]. cbv zeta.
  rewrite Z.mod_small; [reflexivity|]. lia.
Qed.

Lemma load_ok s o low lim data brkmap brk kernel m : R s -> fits_file s o low lim data m -> m <> brkmap ->
  exists s' f ls lc, load nb biggest dbg s o data brkmap brk kernel = Ok s' /\ R s' /\ recorded s s' o data m (o_base o + lim) f ls lc /\
    (forall n, ~ In n (f :: ls ++ lc) -> view s' n = view s n) /\ start s' = start s /\ log s' = log s.
Proof.
  intros HR HF Hm. rewrite (load_to_core s o low lim data brkmap brk kernel m HR HF). destruct HF as (FK & HC & HB & HS & HD & Hsp).
  destruct (core_ok nb biggest dbg al cur max s o low lim data m HR FK HC HB HS HD Hsp) as (s' & f & ls & lc & E & X).
  exists s', f, ls, lc. cbv zeta. rewrite E. cbn [bind]. destruct (Nat.eqb_spec m brkmap); [congruence|]. split; auto.
Qed.

Lemma load_brk_ok s o low lim data brk kernel m : R s -> fits_file s o low lim data m -> brk_above biggest s m brk (o_base o + lim) ->
  exists s' f ls lc, load nb biggest dbg s o data m brk kernel = Ok s' /\ R s' /\ recorded s s' o data m (o_base o + lim) f ls lc /\
    (forall n, ~ In n (f :: ls ++ lc) -> view s' n = if Nat.eqb n brk then Some (lowered (attrs_of (bigs s n)) (o_base o + lim)) else view s n) /\
    ~ In brk (f :: ls ++ lc) /\ start s' = start s /\ log s' = log s.
Proof.
  intros HR HF (Lb & Pb & Hb & Hbs & Hsib). rewrite (load_to_core s o low lim data m brk kernel m HR HF). destruct HF as (FK & HC & HB & HS & HD & Hsp).
  destruct (core_ok nb biggest dbg al cur max s o low lim data m HR FK HC HB HS HD Hsp) as (s5 & f & ls & lc & E & R5 & HRec & HV & Hst & Hlog).
  destruct (m0 nb biggest dbg al cur max s o lim m HR HC) as (Lm & Nm & PB).
  assert (Hold : forall n, live s n -> ~ In n (f :: ls ++ lc) /\ view s5 n = view s n).
  { intros n Ln. assert (X : ~ In n (f :: ls ++ lc)). { intro Hi. destruct (proj2 (proj1 HRec) n Hi) as [_ V]. apply view_live in Ln. congruence. }
    split; auto. }
  destruct (Hold m Lm) as [_ Vm]. destruct (attrs_same s s5 m Lm Vm) as [Em Lm5].
  destruct (Hold brk Lb) as [Hnb Vb]. destruct (attrs_same s s5 brk Lb Vb) as [Eb Lb5].
  injection Em; intros _ _ _ _ M3 M2 M1. injection Eb; intros B7 B6 B5 B4 B3 B2 B1.
  set (e := o_base o + lim) in *.
  assert (HL : legal nb biggest al s5 (PreExtend brk e)).
  { destruct (big_forest_always nb biggest dbg al cur max s5 R5) as [FO _]. pose proof (fo_range _ FO brk Lb5) as Gb.
    split; [auto|]. split; [lia|]. split; [|lia]. pose proof (low_lim _ _ _ FK). constructor.
    - unfold e in *. lia.
    - unfold e in *. lia.
    - intros _. rewrite B3, Pb. pose proof (fo_inside _ FO brk Lb5) as X. rewrite B3, Pb in X. specialize (X Nm). lia.
    - intros c Lc Pc. pose proof (fo_inside _ FO c Lc) as X. rewrite Pc in X. specialize (X (proj1 Lb)). lia.
    - intros x Lx Hx Px. rewrite B3, Pb in Px.
      destruct (in_dec Nat.eq_dec x (f :: ls ++ lc)) as [Hi|Hn].
      + left. destruct HRec as [[ND Hnew] [Hf Hsg Hsc]]. destruct Hi as [<-|Hi].
        * destruct (view_fields _ _ _ Hf) as (_ & _ & X & _). cbn in X. lia.
        * exfalso. assert (Hpar : exists t, view s5 x = Some t /\ In (a_parent t) (f :: ls)).
          { apply in_app_or in Hi. destruct Hi as [Hi|Hi].
            - destruct (forall2_in_r _ _ _ _ Hsg Hi) as (g & _ & V). eexists. split; [exact V|]. left. auto.
            - destruct (forall2_in_r _ _ _ _ Hsc Hi) as (c & _ & g & k & Hk & _ & V). eexists. split; [exact V|]. right. cbn. eapply in_combine_r. exact Hk. }
          destruct Hpar as (t & V & Ht). destruct (view_fields _ _ _ V) as (_ & _ & _ & X & _). rewrite Px in X. rewrite <- X in Ht.
          destruct (Hnew m) as [_ Y]; [destruct Ht as [<-|Ht]; [left; auto|right; apply in_or_app; auto]|]. apply view_live in Lm. congruence.
      + right. pose proof (HV x Hn) as Vx.
        assert (Lx0 : live s x) by (apply view_live; rewrite <- Vx; apply view_live; auto).
        destruct (attrs_same s s5 x Lx0 Vx) as [Ex _]. injection Ex; intros. specialize (Hsib x Lx0 Hx). lia.
    - intro X. rewrite B3, Pb in X. congruence. }
  destruct (big_pre_extend_exact nb biggest dbg al cur max s5 brk e R5 HL) as (s' & E' & R' & HV' & Hst' & Hlog').
  exists s', f, ls, lc. cbv zeta. rewrite E. cbn [bind]. rewrite Nat.eqb_refl.
  replace (b_begin (bigs s5 m) + (e - b_begin (bigs s m))) with e by lia.
  rewrite asrt_true by (apply Z.ltb_lt; lia). cbn [bind]. split; [exact E'|]. split; [auto|].
  assert (HV2 : forall n, n <> brk -> view s' n = view s5 n) by (intros n Hn; rewrite HV'; destruct (Nat.eqb_spec n brk); congruence).
  split; [|split; [|split; [auto|split; congruence]]].
  - destruct HRec as [H1 [H2 H3 H4]]. assert (Hni : forall n, In n (f :: ls ++ lc) -> view s' n = view s5 n) by (intros n Hi; apply HV2; congruence).
    split; auto. constructor; auto.
    + rewrite Hni; auto. left. auto.
    + assert (Hni2 : forall n, In n ls -> view s' n = view s5 n) by (intros n Hi; apply Hni; right; apply in_or_app; auto).
      clear - H3 Hni2. induction H3 as [|g n l1 l2 V F IH]; constructor; [rewrite Hni2; auto; left; auto|apply IH; intros; apply Hni2; right; auto].
    + assert (Hni2 : forall n, In n lc -> view s' n = view s5 n) by (intros n Hi; apply Hni; right; apply in_or_app; auto).
      clear - H4 Hni2. induction H4 as [|c n l1 l2 (g & k & V1 & V2 & V3) F IH]; constructor; [|apply IH; intros; apply Hni2; right; auto].
      exists g, k. rewrite Hni2; auto. left. auto.
  - intros n Hn. rewrite HV'. destruct (Nat.eqb_spec n brk) as [->|Hne]; auto. f_equal.
    unfold lowered, attrs_of. cbn. rewrite B2, B3, B4, B5, B6, B7. f_equal. unfold e in *. lia.
Qed.

(* ------------------------------------------------------------ lookup afterwards *)
(* the file's records are there, and nothing else lies in its range but its mapping *)
Definition still (s' : st) (o : obj) (data b : Z) (m : nat) (e : Z) (f : nat) (ls lc : list nat) : Prop :=
  held s' o data b m e f ls lc /\
  forall x a, live s' x -> covers s' x a -> b <= a < e -> x = m \/ In x (f :: ls ++ lc).

Section L.
Variables (s' : st) (o : obj) (low lim data b : Z) (m f : nat) (ls lc : list nat).
Hypothesis (R' : R s') (FK : file_ok o low lim) (HB : b <= o_base o + low) (Nm : m <> 0%nat) (Am : b_alloc (bigs s' m) = MMAP).
Hypothesis HS : still s' o data b m (o_base o + lim) f ls lc.

Lemma seg_view g k : In (g, k) (combine (o_segs o) ls) -> live s' k /\ b_begin (bigs s' k) = lo_of (o_base o) g /\ b_end (bigs s' k) = hi_of (o_base o) g /\
  b_parent (bigs s' k) = f /\ b_alloc (bigs s' k) = SEGM.
Proof.
  intro Hk. destruct HS as [[_ Hsg _] _]. clear - Hsg Hk. revert Hk. induction Hsg as [|a b0 l r V _ IH]; cbn; [tauto|].
  intros [E|Hk]; auto. injection E as -> ->. destruct (view_fields _ _ _ V) as (A & B & C & D & F & _). auto.
Qed.
Lemma sec_view n : In n lc -> exists c g k, In c (nonempty (o_secs o)) /\ In (g, k) (combine (o_segs o) ls) /\ inside c g /\ live s' n /\
  b_begin (bigs s' n) = lo_of (o_base o) c /\ b_end (bigs s' n) = hi_of (o_base o) c /\ b_parent (bigs s' n) = k /\ b_alloc (bigs s' n) = SECT.
Proof.
  intro Hn. destruct HS as [[_ _ Hsc] _]. destruct (forall2_in_r _ _ _ _ Hsc Hn) as (c & Hc & g & k & Hk & Hin & V).
  exists c, g, k. destruct (view_fields _ _ _ V) as (A & B & C & D & F & _). auto 10.
Qed.
Lemma file_view : live s' f /\ b_begin (bigs s' f) = b /\ b_end (bigs s' f) = o_base o + lim /\ b_parent (bigs s' f) = m /\ b_alloc (bigs s' f) = FILE.
Proof. destruct HS as [[V _ _] _]. destruct (view_fields _ _ _ V) as (A & B & C & D & F & _). auto. Qed.
Lemma ls_in k : In k ls -> exists g, In (g, k) (combine (o_segs o) ls).
Proof.
  intro Hk. destruct HS as [[_ Hsg _] _]. clear - Hsg Hk. revert Hk. induction Hsg as [|a b0 l r V _ IH]; cbn; [tauto|].
  intros [->|Hk]; [exists a; auto|]. destruct (IH Hk) as (g & Hg). exists g. auto.
Qed.

(* who covers an address of the file *)
Lemma who x a : live s' x -> covers s' x a -> b <= a < o_base o + lim ->
  x = m \/ x = f \/ (exists g, In (g, x) (combine (o_segs o) ls) /\ lo_of (o_base o) g <= a < hi_of (o_base o) g) \/
  (exists c g k, In x lc /\ In c (nonempty (o_secs o)) /\ In (g, k) (combine (o_segs o) ls) /\ inside c g /\ b_parent (bigs s' x) = k /\
     lo_of (o_base o) c <= a < hi_of (o_base o) c).
Proof.
  intros Lx Cx Ha. destruct (proj2 HS x a Lx Cx Ha) as [|[|Hi]]; [auto|auto|].
  right. right. apply in_app_or in Hi. destruct Hi as [Hi|Hi].
  - left. destruct (ls_in x Hi) as (g & Hg). exists g. split; auto. destruct (seg_view g x Hg) as (_ & A & B & _). unfold covers in Cx. lia.
  - right. destruct (sec_view x Hi) as (c & g & k & Hc & Hk & Hin & _ & A & B & D & _). exists c, g, k. unfold covers in Cx.
    repeat (split; [solve [auto]|]). lia.
Qed.

Lemma lookup_from_innermost a n : innermost s' a n -> find_deepest nb s' a = Ok n.
Proof.
  intro HI. destruct (big_lookup_innermost nb biggest dbg al cur max s' a R') as (r & E & X). rewrite E. f_equal.
  apply (big_lookup_unique nb biggest dbg al cur max s' a r n R' X). unfold lookup_answer. destruct (Nat.eqb_spec n 0) as [->|]; auto.
  destruct HI as [[H _] _]. congruence.
Qed.

Lemma anc_mf : anc s' m f.
Proof. destruct file_view as (_ & _ & _ & P & _). apply anc_up; rewrite P; [auto|constructor]. Qed.
Lemma f_nz : f <> 0%nat. Proof. destruct file_view as ((H & _) & _). auto. Qed.
Lemma anc_fg g k : In (g, k) (combine (o_segs o) ls) -> anc s' f k.
Proof. intro H. destruct (seg_view g k H) as (_ & _ & _ & P & _). apply anc_up; rewrite P; [apply f_nz|constructor]. Qed.
Lemma anc_mg g k : In (g, k) (combine (o_segs o) ls) -> anc s' m k.
Proof. intro H. destruct (seg_view g k H) as (_ & _ & _ & P & _). apply anc_up; rewrite P; [apply f_nz|apply anc_mf]. Qed.

Lemma in_range_seg g a : In g (o_segs o) -> lo_of (o_base o) g <= a < hi_of (o_base o) g -> b <= a < o_base o + lim.
Proof. intros Hg Ha. destruct FK as [[_ L] [_ M] _ _ _ _ _]. specialize (L g Hg). specialize (M g Hg). unfold lo_of, hi_of in Ha. lia. Qed.
Lemma in_range_sec c g a : In g (o_segs o) -> inside c g -> lo_of (o_base o) c <= a < hi_of (o_base o) c -> lo_of (o_base o) g <= a < hi_of (o_base o) g.
Proof. unfold inside, lo_of, hi_of. lia. Qed.

Lemma lookup_section i c n a : nth_error (nonempty (o_secs o)) i = Some c -> nth_error lc i = Some n ->
  lo_of (o_base o) c <= a < hi_of (o_base o) c -> find_deepest nb s' a = Ok n.
Proof.
  intros Hc Hn Ha. apply lookup_from_innermost. destruct HS as [[_ _ Hsc] _].
  destruct (forall2_nth _ _ _ _ _ _ Hsc Hc Hn) as (g & k & Hk & Hin & V). destruct (view_fields _ _ _ V) as (Ln & N1 & N2 & N3 & _). cbn in N1, N2, N3.
  assert (Hg : In g (o_segs o)) by (eapply in_combine_l; eauto).
  pose proof (in_range_sec c g a Hg Hin Ha) as Hga. pose proof (in_range_seg g a Hg Hga) as Hra.
  destruct (seg_view g k Hk) as (Lk & K1 & K2 & K3 & _).
  assert (Akn : anc s' k n) by (apply anc_up; rewrite N3; [apply Lk|constructor]).
  split; [auto|]. split; [unfold covers; lia|]. intros x Lx Cx.
  destruct (who x a Lx Cx Hra) as [->|[->|[(g2 & Hg2 & Ha2)|(c2 & g2 & k2 & Hx & Hc2 & Hk2 & Hin2 & P2 & Ha2)]]].
  - apply anc_up; rewrite N3; [apply Lk|]. eapply anc_mg; eauto.
  - apply anc_up; rewrite N3; [apply Lk|]. eapply anc_fg; eauto.
  - destruct (combine_same _ _ _ _ _ _ _ (fk_segs_apart _ _ _ FK) Hg2 Hk) as [E|[D|D]].
    + injection E as -> ->. exact Akn.
    + exfalso. unfold apart, lo_of, hi_of in *. lia.
    + exfalso. unfold apart, lo_of, hi_of in *. lia.
  - assert (x = n); [|subst; constructor]. destruct (In_nth_error _ _ Hx) as (j & Hj).
    assert (Hlen : length (nonempty (o_secs o)) = length lc) by (clear - Hsc; induction Hsc; cbn; auto).
    destruct (nth_error (nonempty (o_secs o)) j) as [c3|] eqn:E3.
    2: { apply nth_error_None in E3. assert (j < length lc)%nat by (apply nth_error_Some; congruence). lia. }
    destruct (forall2_nth _ _ _ _ _ _ Hsc E3 Hj) as (g3 & k3 & _ & _ & V3). destruct (view_fields _ _ _ V3) as (_ & X1 & X2 & _). cbn in X1, X2.
    assert (Hcc : In (c3, x) (combine (nonempty (o_secs o)) lc) /\ In (c, n) (combine (nonempty (o_secs o)) lc)).
    { split; [revert E3 Hj|revert Hc Hn]; generalize (nonempty (o_secs o)) lc; clear; [revert j|revert i].
      all: intros i l; revert i; induction l as [|y l IH]; intros [|i] [|z r]; cbn; try discriminate; intros A B; [left; congruence|right; eapply IH; eauto]. }
    destruct (combine_same _ _ _ _ _ _ _ (fk_secs_apart _ _ _ FK) (proj1 Hcc) (proj2 Hcc)) as [E|[D|D]]; [congruence| |].
    all: exfalso; unfold covers in Cx; unfold apart, lo_of, hi_of in *; lia.
Qed.

Lemma lookup_segment g k a : In (g, k) (combine (o_segs o) ls) -> lo_of (o_base o) g <= a < hi_of (o_base o) g ->
  (forall c, In c (nonempty (o_secs o)) -> ~ lo_of (o_base o) c <= a < hi_of (o_base o) c) -> find_deepest nb s' a = Ok k.
Proof.
  intros Hk Ha Hno. apply lookup_from_innermost. assert (Hg : In g (o_segs o)) by (eapply in_combine_l; eauto).
  pose proof (in_range_seg g a Hg Ha) as Hra. destruct (seg_view g k Hk) as (Lk & K1 & K2 & K3 & _).
  split; [auto|]. split; [unfold covers; lia|]. intros x Lx Cx.
  destruct (who x a Lx Cx Hra) as [->|[->|[(g2 & Hg2 & Ha2)|(c2 & g2 & k2 & Hx & Hc2 & Hk2 & Hin2 & P2 & Ha2)]]].
  - eapply anc_mg; eauto.
  - eapply anc_fg; eauto.
  - destruct (combine_same _ _ _ _ _ _ _ (fk_segs_apart _ _ _ FK) Hg2 Hk) as [E|[D|D]].
    + injection E as -> ->. constructor.
    + exfalso. unfold apart, lo_of, hi_of in *. lia.
    + exfalso. unfold apart, lo_of, hi_of in *. lia.
  - exfalso. apply (Hno c2); auto.
Qed.

Lemma lookup_file a : b <= a < o_base o + lim ->
  (forall g, In g (o_segs o) -> ~ lo_of (o_base o) g <= a < hi_of (o_base o) g) -> find_deepest nb s' a = Ok f.
Proof.
  intros Hra Hno. apply lookup_from_innermost. destruct file_view as (Lf & F1 & F2 & F3 & _).
  split; [auto|]. split; [unfold covers; lia|]. intros x Lx Cx.
  destruct (who x a Lx Cx Hra) as [->|[->|[(g2 & Hg2 & Ha2)|(c2 & g2 & k2 & Hx & Hc2 & Hk2 & Hin2 & P2 & Ha2)]]].
  - apply anc_mf.
  - constructor.
  - exfalso. apply (Hno g2); auto. eapply in_combine_l; eauto.
  - exfalso. assert (Hg2 : In g2 (o_segs o)) by (eapply in_combine_l; eauto). apply (Hno g2 Hg2). apply (in_range_sec c2); auto.
Qed.

(* queries by allocator: which file, which segment *)
Lemma find_file a : b <= a < o_base o + lim -> find_from_root nb s' a FILE false = Ok f.
Proof.
  intro Hra. destruct file_view as (Lf & F1 & F2 & F3 & F4). apply (find_unique _ _ _ _ _ _ _ _ _ _ R'); auto; [unfold covers; lia|].
  intros x Lx Cx Ex. destruct (who x a Lx Cx Hra) as [->|[->|[(g2 & Hg2 & Ha2)|(c2 & g2 & k2 & Hx & _)]]]; auto.
  - rewrite Am in Ex. discriminate.
  - destruct (seg_view g2 x Hg2) as (_ & _ & _ & _ & X). rewrite Ex in X. discriminate.
  - destruct (sec_view x Hx) as (? & ? & ? & _ & _ & _ & _ & _ & _ & _ & X). rewrite Ex in X. discriminate.
Qed.
Lemma find_segment g k a : In (g, k) (combine (o_segs o) ls) -> lo_of (o_base o) g <= a < hi_of (o_base o) g -> find_from_root nb s' a SEGM false = Ok k.
Proof.
  intros Hk Ha. assert (Hg : In g (o_segs o)) by (eapply in_combine_l; eauto).
  pose proof (in_range_seg g a Hg Ha) as Hra. destruct (seg_view g k Hk) as (Lk & K1 & K2 & K3 & K4).
  apply (find_unique _ _ _ _ _ _ _ _ _ _ R'); auto; [unfold covers; lia|].
  intros x Lx Cx Ex. destruct (who x a Lx Cx Hra) as [->|[->|[(g2 & Hg2 & Ha2)|(c2 & g2 & k2 & Hx & _)]]]; auto.
  - rewrite Am in Ex. discriminate.
  - destruct file_view as (_ & _ & _ & _ & X). rewrite Ex in X. discriminate.
  - destruct (combine_same _ _ _ _ _ _ _ (fk_segs_apart _ _ _ FK) Hg2 Hk) as [E|[D|D]]; [congruence| |].
    all: exfalso; unfold apart, lo_of, hi_of in *; lia.
  - destruct (sec_view x Hx) as (? & ? & ? & _ & _ & _ & _ & _ & _ & _ & X). rewrite Ex in X. discriminate.
Qed.
End L.

(* straight after loading, the file is still there *)
Lemma load_still s s' o low lim data m f ls lc brk : R s -> fits_file s o low lim data m -> recorded s s' o data m (o_base o + lim) f ls lc ->
  (forall n, ~ In n (f :: ls ++ lc) -> view s' n = view s n \/
     (n = brk /\ live s n /\ o_base o + lim < b_begin (bigs s n) /\ view s' n = Some (lowered (attrs_of (bigs s n)) (o_base o + lim)))) ->
  still s' o data (b_begin (bigs s m)) m (o_base o + lim) f ls lc /\ b_parent (bigs s' m) = 0%nat /\ b_alloc (bigs s' m) = MMAP /\ m <> 0%nat.
Proof.
  intros HR (FK & HC & HB & HS & HD & Hsp) HRec HV. destruct (m0 nb biggest dbg al cur max s o lim m HR HC) as (Lm & Nm & PB).
  assert (Hnm : ~ In m (f :: ls ++ lc)). { intro Hi. destruct (proj2 (proj1 HRec) m Hi) as [_ V]. apply view_live in Lm. congruence. }
  split; [|].
  - split; [apply HRec|]. intros x a Lx Cx Ha.
    destruct (in_dec Nat.eq_dec x (f :: ls ++ lc)) as [Hi|Hn]; auto. left. destruct (HV x Hn) as [Vx|(_ & _ & Hb & Vx)].
    + assert (Lx0 : live s x) by (apply view_live; rewrite <- Vx; apply view_live; auto).
      apply (only_root nb biggest dbg al cur max s m (o_base o + lim) HR HC x a Lx0); [|lia].
      destruct (attrs_same s s' x Lx0 Vx) as [Ex _]. injection Ex; intros. unfold covers in *. lia.
    + exfalso. destruct (view_fields _ _ _ Vx) as (_ & X & _). cbn in X. unfold covers in Cx. lia.
  - destruct (HV m Hnm) as [Vm|(_ & _ & Hb & _)].
    + destruct (attrs_same s s' m Lm Vm) as [Em _]. injection Em; intros. destruct HC as (_ & P & A & _). repeat split; congruence.
    + exfalso. pose proof (low_lim _ _ _ FK). lia.
Qed.
End P.
