(* The heap index: the calls succeed and do what the invariant says. *)
From Verif Require Import Base Big_model Big_spec Big_inv Big_set Big_lookup Big_create Big_hist Big_props Big_field Map_state Insert_model Heap_model Heap_spec Heap_proof.

(* ---- the bitmap search ---- *)
Lemma rfind_some bits lo k j g : lo <= j <= k -> bits j = true -> (forall i, j < i <= k -> bits i = false) -> k - j < Z.of_nat g ->
  rfind bits lo k g = Some j.
Proof.
  revert k. induction g as [|g IH]; intros k Hj Bj Nb Hg; [lia|]. cbn [rfind]. destruct (Z.ltb_spec k lo); [lia|].
  destruct (Z.eq_dec j k) as [->|Ne]; [rewrite Bj; reflexivity|]. rewrite Nb by lia. apply IH; [lia|exact Bj| |lia].
  intros i Hi. apply Nb. lia.
Qed.
Lemma rfind_none bits lo k g : (forall i, lo <= i <= k -> bits i = false) -> rfind bits lo k g = None.
Proof.
  revert k. induction g as [|g IH]; intros k Nb; [reflexivity|]. cbn [rfind]. destruct (Z.ltb_spec k lo); [reflexivity|].
  rewrite Nb by lia. apply IH. intros i Hi. apply Nb. lia.
Qed.

(* the search, given that nothing set lies between *)
Lemma via_some (dbg : bool) f mem sz o : i_base f mod 1024 = 0 -> i_base f <= o -> o mod 16 = 0 -> o <= mem -> 0 <= i_unprom f -> i_unprom f <= mem ->
  mem < i_base f + i_nwords f * SPAN -> mem - i_base f < 2 ^ 34 -> mem < 2 ^ 64 -> 0 <= i_base f ->
  mem - o <= i_unprom f + 8 -> i_bits f ((o - i_base f) / 16) = true ->
  (forall k, (o - i_base f) / 16 < k <= (mem - i_base f) / 16 -> i_bits f k = false) ->
  via_bitmap dbg f mem sz = Ok (Some (o, caller_usable (sz o), insert_for_chunk o (sz o))).
Proof.
  intros B1 B2 B3 B4 B5 B6 B7 B8 B9 B10 B11 B12 B13. unfold via_bitmap. change MALLOC_ALIGN with 16.
  rewrite (w64_id (mem - i_base f)) by lia. rewrite (w64_id (mem - i_unprom f)) by lia.
  rewrite (Z.mod_small ((mem - i_base f) / 16)) by lia.
  set (st := (mem - i_base f) / 16). set (k := (o - i_base f) / 16). assert (Ek : i_base f + 16 * k = o) by (apply idx_exact; assumption).
  set (hidden := if dbg then 0 else _).
  assert (Hh : 0 <= hidden <= k).
  { subst hidden. destruct dbg; [unfold k; lia|]. destruct (rdown_span (mem - i_unprom f)) as [U1 U2]. cbv zeta. set (fk := rdown _ SPAN) in *. clearbody fk.
    destruct (Z.ltb_spec (i_base f) fk); [|unfold k; lia]. unfold NBITS, SPAN. clear B7 B8 B9 B12 B13. clearbody k. lia. }
  clearbody hidden. assert (Hs : k <= st) by (unfold k, st; apply Z.div_le_mono; lia).
  replace (negb ((hidden <=? st) && (st <? i_nwords f * NBITS))) with false.
  2: { symmetry. apply negb_false_iff, andb_true_intro. unfold st, SPAN, NBITS in *. split; lia. }
  rewrite (rfind_some (i_bits f) hidden st k); [|lia|exact B12|exact B13|rewrite Nat2Z.inj_succ, Z2Nat.id by lia; lia].
  cbv zeta. rewrite Ek. reflexivity.
Qed.

Lemma via_none (dbg : bool) f mem sz : i_base f mod 1024 = 0 -> i_base f <= mem -> 0 <= i_unprom f -> i_unprom f <= mem ->
  mem < i_base f + i_nwords f * SPAN -> mem - i_base f < 2 ^ 34 -> mem < 2 ^ 64 -> 0 <= i_base f ->
  (forall k, 0 <= k <= (mem - i_base f) / 16 -> i_bits f k = false) -> via_bitmap dbg f mem sz = Ok None.
Proof.
  intros B1 B2 B5 B6 B7 B8 B9 B10 B13. unfold via_bitmap. change MALLOC_ALIGN with 16.
  rewrite (w64_id (mem - i_base f)) by lia. rewrite (w64_id (mem - i_unprom f)) by lia.
  rewrite (Z.mod_small ((mem - i_base f) / 16)) by lia.
  set (st := (mem - i_base f) / 16). set (hidden := if dbg then 0 else _).
  assert (Hh : 0 <= hidden <= st).
  { subst hidden. destruct dbg; [unfold st; lia|]. destruct (rdown_span (mem - i_unprom f)) as [U1 U2]. cbv zeta. set (fk := rdown _ SPAN) in *. clearbody fk.
    destruct (Z.ltb_spec (i_base f) fk); [|unfold st; lia]. unfold NBITS, SPAN, st. clear B7 B8 B9 B13. lia. }
  clearbody hidden. replace (negb ((hidden <=? st) && (st <? i_nwords f * NBITS))) with false.
  2: { symmetry. apply negb_false_iff, andb_true_intro. unfold st, SPAN, NBITS in *. split; lia. }
  rewrite rfind_none; [reflexivity|]. intros i Hi. apply B13. fold st. lia.
Qed.
Section P.
Variables (nb : nat) (biggest : Z) (dbg : bool) (al : nat -> Z) (cur_ max_ : Z).
Notation R := (reach nb biggest dbg al cur_ max_).
Variable a : nat.
Hypothesis Ha : a <> 0%nat.
Hypothesis Hbig : biggest <= 2 ^ 32.
Notation arena := (arena a).
Notation stands := (stands a).
Notation HInv := (HInv nb biggest dbg al cur_ max_ a).

Lemma set_bit_ok f k b : 0 <= k < i_nwords f * NBITS -> exists f', set_bit f k b = Ok f' /\ i_base f' = i_base f /\
  i_nwords f' = i_nwords f /\ i_unprom f' = i_unprom f /\ forall j, i_bits f' j = if j =? k then b else i_bits f j.
Proof.
  intro Hk. unfold set_bit. replace ((0 <=? k) && (k <? i_nwords f * NBITS)) with true by (symmetry; apply andb_true_intro; lia).
  eexists. split; [reflexivity|]. cbn. auto.
Qed.

Lemma insert_ok H C D n v c : HInv H C D -> arena (h_fo H) n v -> holds v c -> kids_clear (h_fo H) n (c_base c) (c_end c) ->
  chunk_ok c -> (forall d, In d C -> apart c d) -> (large c = false -> forall d, In d D -> d <= c_base c \/ c_end c <= d) ->
  (large c = true -> has_free nb (h_fo H) /\ c_req c <= biggest) ->
  exists H', index_insert nb biggest dbg a H (a_subpriv v) (c_base c) (c_req c) (c_usable c) = Ok (H', c_end c - 8) /\
    HInv H' (c :: C) D /\ added a (h_fo H) (h_fo H') n c.
Proof.
  intros I A Hc Kc Okc Ap St Room. assert (Okc0 := Okc). destruct Okc as [K1 K2 K3 K4]. assert (Hc0 := Hc). destruct Hc as [Hc1 Hc2].
  destruct (idx_range nb biggest dbg al cur_ max_ a Ha Hbig H C D n v c I A Hc0 Okc0) as (G1 & G2 & G3 & G4 & G5).
  assert (Ic : c_end c = c_base c + c_usable c) by reflexivity.
  destruct (ensure_to_ok nb biggest dbg al cur_ max_ a Ha H C D n v (c_base c + c_req c) I A ltac:(lia)) as (H1 & E1 & F1 & F2 & F3 & F4 & F5 & F6 & F7 & F8).
  unfold index_insert. rewrite E1. cbn [bind]. rewrite F1.
  rewrite (find_arena nb biggest dbg al cur_ max_ a H C D n v (c_base c) I A ltac:(lia)). cbn [bind].
  destruct (view_inv _ _ _ (proj1 A)) as [[N0 _] Ev]. destruct (Nat.eqb_spec n 0) as [|_]; [congruence|].
  assert (Eb : b_begin (bigs (h_fo H) n) = a_begin v) by (rewrite Ev; reflexivity).
  assert (Es : b_sub (bigs (h_fo H) n) = a) by (rewrite <- (proj2 A), Ev; reflexivity).
  assert (Ep : b_subpriv (bigs (h_fo H) n) = a_subpriv v) by (rewrite Ev; reflexivity).
  destruct (hi_ar _ _ _ _ _ _ _ _ _ _ I n v A) as (_ & _ & IB & NW & Lo & _ & UP).
  rewrite Eb, Es, Ep. fold (finfo H1 v). rewrite F4, IB, Z.eqb_refl, asrt_true by reflexivity. cbn [bind]. rewrite <- IB.
  rewrite F4 in F6. rewrite asrt_true by (apply Z.leb_le; lia). cbn [bind].
  assert (Ecu : caller_usable (c_usable c) = c_usable c - 8) by (unfold caller_usable, INSERT_SIZE; apply w64_id; lia).
  rewrite Ecu. assert (Ez : insert_at (c_base c) (c_usable c - 8) = c_end c - 8) by (unfold insert_at; rewrite w64_id by lia; lia).
  rewrite Ez. set (k0 := (c_base c - i_base (finfo H v)) / 16) in *.
  assert (Kr : 0 <= k0 < i_nwords (finfo H1 v) * NBITS) by (unfold NBITS, SPAN in *; lia).
  unfold large in *. change 131072 with PROMOTE in *.
  destruct (PROMOTE <? c_usable c) eqn:Lg.
  - destruct (Room eq_refl) as [HF HS].
    rewrite asrt_true by (unfold INSERT_SIZE; rewrite w64_id by lia; apply Z.leb_le; lia). cbn [bind].
    destruct (big_create_exact nb biggest dbg al cur_ max_ (h_fo H) (c_base c) (c_req c) 0 n a n (hi_R _ _ _ _ _ _ _ _ _ _ I) HF HS) as (s' & p & E & HR' & Np & Vp & VW & _).
    { split; [assert (X := vf_range _ _ _ _ _ _ _ (hi_R _ _ _ _ _ _ _ _ _ _ I) n v (proj1 A)); lia|]. destruct (Nat.eqb_spec n 0); [congruence|]. split.
      - destruct (view_inv _ _ _ (proj1 A)) as [Ln _]. split; [exact Ln|]. assert (Ee : b_end (bigs (h_fo H) n) = a_end v) by (rewrite Ev; reflexivity). lia.
      - intros k Lk Pk. destruct (Kc k _ (live_as _ _ Lk) Pk) as [X|X]; cbn in X; lia. }
    { unfold parent_choice. destruct (Nat.eqb_spec n 0); [congruence|reflexivity]. }
    rewrite E. cbn [bind]. destruct (Nat.eqb_spec p 0) as [|_]; [congruence|]. cbn [bind].
    match goal with |- context [set_bit ?f _ _] => destruct (set_bit_ok f k0 true ltac:(cbn; lia)) as (f3 & E3 & S1 & S2 & S3 & S4) end.
    cbn [i_base i_nwords i_unprom i_bits] in *. rewrite ?F4. change MALLOC_ALIGN with 16. fold k0.
    rewrite ?F4 in E3. rewrite E3. cbn [bind]. eexists. split; [reflexivity|].
    assert (Ad : added a (h_fo H) s' n c).
    { unfold added, large. change 131072 with PROMOTE. rewrite Lg. exists p. auto. }
    split; [|exact Ad].
    apply (insert_inv nb biggest dbg al cur_ max_ a Ha Hbig H C D n v c _ I A Hc0 Kc Okc0 Ap); cbn [set_info h_fo h_next h_info]; unfold finfo; cbn [set_info h_info]; rewrite ?Nat.eqb_refl; fold (finfo H v).
    + unfold large. change 131072 with PROMOTE. rewrite Lg. discriminate.
    + exact HR'.
    + exact F2.
    + intros j J. destruct (Nat.eqb_spec j (a_subpriv v)); [congruence|]. apply F3, J.
    + exact Ad.
    + rewrite S1. auto.
    + rewrite S2. exact F5.
    + rewrite S2. lia.
    + intros k Hk. rewrite S2 in Hk. rewrite S4. fold k0. destruct (Z.eqb_spec k k0); [reflexivity|]. cbn [orb]. apply F8, Hk.
    + rewrite S3, F7. unfold PROMOTE in *. lia.
    + unfold large. change 131072 with PROMOTE. rewrite Lg. discriminate.
  - cbn [bind]. apply Z.ltb_ge in Lg.
    match goal with |- context [set_bit ?f _ _] => destruct (set_bit_ok f k0 true ltac:(cbn; lia)) as (f3 & E3 & S1 & S2 & S3 & S4) end.
    cbn [i_base i_nwords i_unprom i_bits] in *. rewrite ?F4. change MALLOC_ALIGN with 16. fold k0.
    rewrite ?F4 in E3. rewrite E3. cbn [bind]. eexists. split; [reflexivity|].
    assert (Sm : large c = false) by (unfold large; change 131072 with PROMOTE; lia).
    assert (Ad : added a (h_fo H) (h_fo H) n c).
    { unfold added. rewrite Sm. auto. }
    split; [|exact Ad].
    apply (insert_inv nb biggest dbg al cur_ max_ a Ha Hbig H C D n v c _ I A Hc0 Kc Okc0 Ap); cbn [set_info h_fo h_next h_info]; unfold finfo; cbn [set_info h_info]; rewrite ?Nat.eqb_refl; fold (finfo H v).
    + intros _. apply St. reflexivity.
    + exact (hi_R _ _ _ _ _ _ _ _ _ _ I).
    + exact F2.
    + intros j J. destruct (Nat.eqb_spec j (a_subpriv v)); [congruence|]. apply F3, J.
    + exact Ad.
    + rewrite S1. auto.
    + rewrite S2. exact F5.
    + rewrite S2. lia.
    + intros k Hk. rewrite S2 in Hk. rewrite S4. fold k0. destruct (Z.eqb_spec k k0); [reflexivity|]. cbn [orb]. apply F8, Hk.
    + rewrite S3, F7. unfold PROMOTE in *. lia.
    + intros _. rewrite S3. lia.
Qed.

Lemma not_above_start s p v : R s -> view s p = Some v -> a_parent v <> 0%nat -> ~ anc s p (start s).
Proof.
  intros HR V P X. destruct (proj2 (big_forest_always _ _ _ _ _ _ s HR)) as [_ (hd & l & _ & _ & Hl & Is & _)].
  apply Hl in Is. destruct Is as [_ Ps]. apply view_inv in V. destruct V as [_ ->]. cbn in P.
  inversion X as [E|m P' _ E]; [rewrite E in P; congruence|]. subst. congruence.
Qed.

Lemma free_ok H C D n v c : HInv H C D -> In c C -> arena (h_fo H) n v -> holds v c ->
  exists H', index_delete nb biggest dbg a H (a_subpriv v) (c_base c) = Ok H' /\
    HInv H' (without c C) (if large c then c_base c :: D else D) /\ removed a (h_fo H) (h_fo H') c.
Proof.
  intros I Ic A Hc. destruct (hi_ck _ _ _ _ _ _ _ _ _ _ I c Ic) as [Okc (n2 & v2 & A2 & Hc2 & Bt & Cov & Sm2 & Lg2)].
  assert (Okc0 := Okc). destruct Okc as [K1 K2 K3 K4]. assert (Hc0 := Hc). destruct Hc as [Hc1 Hc3]. assert (Ie : c_end c = c_base c + c_usable c) by reflexivity.
  assert (n2 = n) by (destruct Hc2; apply (hi_one _ _ _ _ _ _ _ _ _ _ I n2 n v2 v (c_base c) A2 A); lia). subst n2.
  assert (v2 = v) by (destruct A as [X _], A2 as [Y _]; congruence). subst v2.
  destruct (idx_range nb biggest dbg al cur_ max_ a Ha Hbig H C D n v c I A Hc0 Okc0) as (G1 & G2 & G3 & G4 & G5).
  destruct (hi_ar _ _ _ _ _ _ _ _ _ _ I n v A) as (P0 & _ & IB & NW & Lo & _ & UP).
  unfold index_delete. rewrite asrt_true by (apply negb_true_iff, Z.eqb_neq; lia). cbn [bind].
  destruct (large c) eqn:Lg.
  - destruct (Lg2 eq_refl) as (p & w & Sp). assert (Sp0 := Sp). destruct Sp as (S1 & S2 & S3 & S4 & S5).
    rewrite (find_large nb biggest dbg al cur_ max_ a H C D p w (c_base c) I S1 S2 ltac:(lia)). cbn [bind].
    destruct (view_inv _ _ _ S1) as [[Np _] Ew]. destruct (Nat.eqb_spec p 0) as [|_]; [congruence|]. cbn [negb].
    assert (Ea : b_alloc (bigs (h_fo H) p) = a) by (rewrite <- S2, Ew; reflexivity). rewrite Ea.
    assert (UN : forall q, outermost (h_fo H) false (c_base c) a q -> q = p).
    { intros q (Lq & Cq & Aq & _). destruct (in_live _ _ _ Lq Cq) as [V X]. exact (hi_bone _ _ _ _ _ _ _ _ _ _ I q p _ w (c_base c) V S1 Aq S2 X ltac:(lia)). }
    destruct (big_delete_at_exact nb biggest dbg al cur_ max_ (h_fo H) (c_base c) a (hi_R _ _ _ _ _ _ _ _ _ _ I)) as [[_ N]|(s' & q & DD & E & O & HR' & Sub & Gn)].
    + intros q Oq. rewrite (UN q Oq). exact (not_above_start _ _ _ (hi_R _ _ _ _ _ _ _ _ _ _ I) S1 S5).
    + exfalso. destruct (live_in _ _ _ (c_base c) S1 ltac:(lia)) as [Lp Cp]. exact (N p Lp Cp Ea).
    + rewrite (UN q O) in Sub. rewrite E. cbn [bind]. eexists. split; [reflexivity|].
      assert (Rm : removed a (h_fo H) s' c).
      { unfold removed. rewrite Lg. exists p, w, DD. split; [exact Sp0|]. split; [exact Sub|]. exact (go_view _ _ _ Gn). }
      split; [|exact Rm]. assert (X := remove_inv nb biggest dbg al cur_ max_ a Ha Hbig H C D n v c (mkH s' (h_info H) (h_next H)) I Ic A Hc0). cbn [h_fo h_next h_info] in X.
      rewrite Lg in X. apply X; try reflexivity; try assumption. intro k. rewrite andb_true_r. reflexivity.
  - rewrite (no_large nb biggest dbg al cur_ max_ a Ha H C D (c_base c) I).
    2: { intros d Id Ld X. destruct (hi_apart _ _ _ _ _ _ _ _ _ _ I c d Ic Id) as [<-|Q]; [congruence|]. destruct (hi_ck _ _ _ _ _ _ _ _ _ _ I d Id) as [[_ d2 d3 _] _].
         unfold apart, c_end in *. lia. }
    cbn [bind Nat.eqb negb]. destruct (Nat.eqb_spec (a_subpriv v) 0) as [|_]; [congruence|].
    rewrite (find_arena nb biggest dbg al cur_ max_ a H C D n v (c_base c) I A ltac:(lia)). cbn [bind].
    destruct (view_inv _ _ _ (proj1 A)) as [[N0 _] Ev]. destruct (Nat.eqb_spec n 0) as [|_]; [congruence|]. rewrite andb_false_r.
    assert (Eb : b_begin (bigs (h_fo H) n) = a_begin v) by (rewrite Ev; reflexivity). rewrite Eb. fold (finfo H v). rewrite IB, Z.eqb_refl, asrt_true by reflexivity.
    cbn [bind]. rewrite <- IB. rewrite asrt_true by (apply Z.leb_le; lia). cbn [bind].
    rewrite w64_id by lia. change MALLOC_ALIGN with 16. set (k0 := (c_base c - i_base (finfo H v)) / 16) in *.
    destruct (set_bit_ok (finfo H v) k0 false ltac:(unfold NBITS, SPAN in *; lia)) as (f3 & E3 & S1 & S2 & S3 & S4).
    rewrite E3. cbn [bind]. eexists. split; [reflexivity|].
    assert (Rm : removed a (h_fo H) (h_fo H) c) by (unfold removed; rewrite Lg; auto). split; [|exact Rm].
    assert (X := remove_inv nb biggest dbg al cur_ max_ a Ha Hbig H C D n v c (set_info H (a_subpriv v) f3) I Ic A Hc0). unfold finfo in X. cbn [set_info h_fo h_next h_info] in X.
    rewrite Lg in X. rewrite Nat.eqb_refl in X. apply X; try assumption; try reflexivity.
    + exact (hi_R _ _ _ _ _ _ _ _ _ _ I).
    + intros j J. destruct (Nat.eqb_spec j (a_subpriv v)); [congruence|reflexivity].
    + intro k. rewrite S4. fold (finfo H v). fold k0. destruct (Z.eqb_spec k k0); cbn; [rewrite andb_false_r; reflexivity|rewrite andb_true_r; reflexivity].
Qed.

(* ---- the rest of the system ---- *)
Lemma calm_inv H C D s' : HInv H C D -> R s' -> calm a C (h_fo H) s' -> HInv (mkH s' (h_info H) (h_next H)) C D.
Proof.
  intros I HR [C1 C2 C3 C4 C5].
  assert (FI : forall v v', a_subpriv v' = a_subpriv v -> finfo (mkH s' (h_info H) (h_next H)) v' = finfo H v).
  { intros v v' E. unfold finfo. cbn. rewrite E. reflexivity. }
  constructor; cbn [h_fo h_next].
  - exact HR.
  - exact (hi_next _ _ _ _ _ _ _ _ _ _ I).
  - exact C2.
  - intros n v' X. destruct (C1 n v' X) as (v & A & E1 & E2 & E3). rewrite (FI v v' E2), E1, E2, E3. exact (hi_ar _ _ _ _ _ _ _ _ _ _ I n v A).
  - intros n m v' w' X Y E. destruct (C1 n v' X) as (v & A & _ & E2 & _). destruct (C1 m w' Y) as (w & B & _ & E3 & _).
    apply (hi_own _ _ _ _ _ _ _ _ _ _ I n m v w A B). congruence.
  - intros c Ic. destruct (hi_ck _ _ _ _ _ _ _ _ _ _ I c Ic) as [Okc (n & v & A & Hc & Bt & Cov & Sm & Lg)]. split; [exact Okc|].
    destruct (C4 c n v Ic A Hc) as (v' & A' & Hc' & K'). exists n, v'. destruct (C1 n v' A') as (v0 & A0 & _ & E2 & _).
    assert (v0 = v) by (destruct A as [X _], A0 as [Y _]; congruence). subst v0. rewrite (FI v v' E2).
    split; [auto|]. split; [auto|]. split; [auto|]. split; [auto|]. split; [intro S0; split; [auto|apply Sm, S0]|].
    intro L0. destruct (Lg L0) as (p & w & S0). destruct (C5 c p w Ic L0 S0) as (w' & X). exists p, w'. exact X.
  - intros n v' k X Hk Bk. destruct (C1 n v' X) as (v & A & E1 & E2 & E3). rewrite (FI v v' E2) in *.
    destruct (hi_bits _ _ _ _ _ _ _ _ _ _ I n v k A Hk Bk) as [(c & Ic & Hc & Ec)|Id]; [left|right; exact Id].
    exists c. split; [exact Ic|]. split; [|exact Ec]. destruct (C4 c n v Ic A Hc) as (w & [A' _] & Hw & _). destruct X as [X _]. rewrite X in A'. injection A' as <-. exact Hw.
  - intros p v' V Av. destruct (C3 p v' V Av) as (v & V0 & A0 & _). destruct (hi_big _ _ _ _ _ _ _ _ _ _ I p v V0 A0) as (c & Ic & L0 & S0).
    exists c. split; [auto|]. split; [auto|]. destruct (C5 c p v Ic L0 S0) as (w & S1). assert (w = v') by (destruct S1; congruence). subst w. exact S1.
  - intros p q v' w' x X Y Ax Ay Hx Hy. destruct (C3 p v' X Ax) as (v & V0 & A0 & B1 & B2). destruct (C3 q w' Y Ay) as (w & W0 & A1 & B3 & B4).
    apply (hi_bone _ _ _ _ _ _ _ _ _ _ I p q v w x V0 W0 A0 A1); lia.
  - exact (hi_apart _ _ _ _ _ _ _ _ _ _ I).
  - exact (hi_stale _ _ _ _ _ _ _ _ _ _ I).
Qed.

End P.
