(* Stack allocation: leaving a frame. *)
From Verif Require Import Base Big_model Big_field Insert_model Insert_proof Heap_model Heap_proof Heap_calls
  Alloca_model Alloca_spec Alloca_proof Alloca_cover Alloca_calls Alloca_steps.

Section P.
Variables bot top : Z.
Hypothesis Har : area bot top.
Variable dbg : bool.
Notation chain := (chain bot top).
Notation Core := (Core bot top).
Notation AInv := (AInv bot top dbg).

Lemma delete_ok r k p : p = i_base (r_info r) + k * 16 -> in_rec p r = true -> 0 <= k < i_nwords (r_info r) * NBITS ->
  i_base (r_info r) = rdown (r_begin r) SPAN -> 0 <= p < 2 ^ 64 -> 0 <= i_base (r_info r) ->
  exists r', delete dbg r p = Ok r' /\ r_begin r' = r_begin r /\ r_end r' = r_end r /\ i_base (r_info r') = i_base (r_info r) /\
    i_nwords (r_info r') = i_nwords (r_info r) /\ forall j, k < j -> i_bits (r_info r') j = i_bits (r_info r) j.
Proof.
  intros Ep Hin Hk Hb Hp H0. unfold delete. rewrite Hin. cbn [negb]. destruct (existsb _ _).
  - eexists. split; [reflexivity|]. repeat split; reflexivity.
  - rewrite asrt_true by (apply Z.eqb_eq; exact Hb). cbn [bind]. rewrite asrt_true by (apply Z.leb_le; lia). cbn [bind].
    rewrite (w64_small (p - i_base (r_info r))) by lia.
    assert (E : (p - i_base (r_info r)) / 16 = k) by (rewrite Ep; replace (i_base (r_info r) + k * 16 - i_base (r_info r)) with (k * 16) by lia; apply Z.div_mul; lia).
    rewrite E. unfold set_bit.
    replace ((0 <=? k) && (k <? i_nwords (r_info r) * NBITS)) with true by (symmetry; apply andb_true_intro; split; [apply Z.leb_le|apply Z.ltb_lt]; apply Hk).
    cbn [bind]. eexists. split; [reflexivity|]. cbn. repeat split. intros j Hj. destruct (Z.eqb_spec j k); [lia|reflexivity].
Qed.

Lemma loop_ok m hi total : total < 2 ^ 64 -> forall C lo r cur done_ fuel,
  stacked lo C hi -> C <> [] -> within (r_begin r) (r_end r) C -> i_base (r_info r) = rdown (r_begin r) SPAN -> 2 ^ 20 <= r_begin r -> r_end r <= 2 ^ 47 ->
  let n := w64 (cur + 1) in
  0 <= n ->
  (forall k, n <= k < i_nwords (r_info r) * NBITS -> (i_bits (r_info r) k = true <-> exists c, In c C /\ k_ptr c = i_base (r_info r) + 16 * k)) ->
  (forall c, In c C -> n <= (k_ptr c - i_base (r_info r)) / 16 < i_nwords (r_info r) * NBITS) ->
  (forall c, In c C -> m (k_ptr c - 8) = k_hi c - k_ptr c) ->
  (dbg = true -> forall c, In c C -> small c) ->
  0 <= done_ -> done_ + sum C = total -> i_nwords (r_info r) * NBITS - n < Z.of_nat fuel -> i_nwords (r_info r) * NBITS < 2 ^ 63 ->
  unindex_loop dbg fuel r m cur total done_ = Ok (map k_ptr C, false).
Proof.
  intro Ht. induction C as [|c C IH]; intros lo r cur done_ fuel St Ne W Hb L1 L2 n Hn Bits Idx Me Sm Hd Hs Hf Hw; [congruence|].
  destruct St as (S1 & (C1 & C2 & C3 & C4 & C5 & C6) & St). destruct fuel as [|fuel]; [exfalso; specialize (Idx c (or_introl eq_refl)); lia|].
  cbn [unindex_loop]. fold n. destruct (rdown_span (r_begin r)) as [D1 D2].
  destruct (Idx c (or_introl eq_refl)) as [X1 X2]. destruct (W c (or_introl eq_refl)) as [Wc _].
  set (i := (k_ptr c - i_base (r_info r)) / 16) in *. assert (Ei : i_base (r_info r) + 16 * i = k_ptr c) by (apply idx_exact; [exact C3|rewrite Hb; exact D2]).
  assert (Lt : forall d, In d C -> k_hi c <= k_lo d /\ k_lo d + 8 <= k_ptr d).
  { intros d I. destruct (stacked_in _ _ _ _ St I) as (A & B & (?&?&?&?&?&?)). lia. }
  assert (F : find_geq (r_info r) n = Some i).
  { destruct (find_geq (r_info r) n) as [k|] eqn:E.
    - apply find_geq_some in E. destruct E as (E1 & E2 & E3). apply Bits in E2; [|exact E1]. destruct E2 as (d & [<-|I] & E4); [f_equal; lia|].
      exfalso. destruct (Lt d I). assert (i < k) by lia. specialize (E3 i ltac:(lia)).
      rewrite (proj2 (Bits i ltac:(lia))) in E3; [discriminate|]. exists c. split; [left; reflexivity|symmetry; exact Ei].
    - exfalso. assert (E3 := find_geq_none _ _ E i ltac:(lia)). rewrite (proj2 (Bits i ltac:(lia))) in E3; [discriminate|]. exists c. split; [left; reflexivity|symmetry; exact Ei]. }
  rewrite F. cbv zeta. replace (i_base (r_info r) + i * 16) with (k_ptr c) by lia. unfold usable. rewrite (Me c (or_introl eq_refl)).
  destruct (delete_ok r i (k_ptr c)) as (r' & -> & G1 & G2 & G3 & G4 & G5); [lia| |lia|exact Hb|lia|rewrite Hb; lia|].
  { unfold in_rec. apply andb_true_intro. split; lia. }
  cbn [bind]. rewrite asrt_true_or by (intro D; specialize (Sm D c (or_introl eq_refl)); unfold small, LIMIT in *; apply Z.ltb_lt; lia). cbn [bind].
  cbn [sum] in Hs. assert (Sn := sum_nonneg _ _ _ St). rewrite (w64_small (done_ + (k_hi c - k_ptr c))) by lia.
  destruct C as [|d C'].
  - cbn [sum] in Hs. destruct (Z.leb_spec total (done_ + (k_hi c - k_ptr c))); [|lia]. cbn [map]. destruct (Z.ltb_spec total (done_ + (k_hi c - k_ptr c))); [lia|reflexivity].
  - assert (Pos : 0 < sum (d :: C')).
    { cbn [sum]. destruct (Lt d (or_introl eq_refl)). destruct St as (_ & (?&?&?&?&?&?) & St2). assert (Sn2 := sum_nonneg _ _ _ St2). lia. }
    destruct (Z.leb_spec total (done_ + (k_hi c - k_ptr c))); [lia|].
    assert (Ew : w64 (i + 1) = i + 1) by (apply w64_small; lia).
    rewrite (IH (k_hi c) r' i (done_ + (k_hi c - k_ptr c)) fuel St).
    + cbn [bind map]. reflexivity.
    + discriminate.
    + rewrite G1, G2. intros e Ie. apply W. right; exact Ie.
    + rewrite G3, G1. exact Hb.
    + rewrite G1. exact L1.
    + rewrite G2. exact L2.
    + lia.
    + rewrite Ew, G3, G4. intros k Hk. rewrite G5 by lia. rewrite Bits by lia. split.
      * intros (e & [<-|Ie] & Ee); [exfalso; lia|]. exists e. split; assumption.
      * intros (e & Ie & Ee). exists e. split; [right; exact Ie|exact Ee].
    + rewrite Ew, G3, G4. intros e Ie. destruct (Idx e (or_intror Ie)) as [Y1 Y2]. split; [|exact Y2]. destruct (Lt e Ie).
      assert (k_ptr e mod 16 = 0) by apply (W e (or_intror Ie)). rewrite <- Hb in D2. clear - H1 H2 H0 Ei C4 C6 D2 H C3. lia.
    + intros e Ie. apply Me. right; exact Ie.
    + intros D e Ie. apply (Sm D). right; exact Ie.
    + lia.
    + lia.
    + rewrite Ew, G4. lia.
    + rewrite G4. exact Hw.
Qed.

Lemma leave_ok s g G sp : AInv s (g :: G) -> can_leave bot g sp ->
  exists s', leave dbg s (g_ctr g) sp = Ok (s', (map k_ptr (g_chunks g), false)) /\ AInv s' G /\ s_mem s' = s_mem s /\
    forall x, g_bp g <= x -> query dbg s' x = query dbg s x.
Proof.
  intros [V D] [L1 L2]. assert (Vc := v_chain _ _ _ _ V). destruct (chain_in _ _ _ g Vc (or_introl eq_refl)) as (K1 & K2 & K3 & K4 & K5 & K6 & K7).
  destruct (v_words _ _ _ _ V g (or_introl eq_refl)) as [Wc Ww]. destruct Har as (R1 & R2 & R3).
  unfold leave. destruct (mt_inv _ _ _ (v_mt _ _ _ _ V)) as [[E M]|(r & l & El & R & M)].
  - rewrite pick_none. 2: { intros q I. destruct Vc as (C1 & _ & _ & C4 & _ & _ & C7). assert (Z1 := mt_above _ _ _ _ M C7 q I). lia. }
    rewrite Wc, E. cbn [sum map]. exists s. split; [reflexivity|]. split; [|split; reflexivity]. split.
    + constructor; [apply Vc|intros d I; apply V; right; exact I|exact M].
    + intros B d c I J. apply (D B d c); [right; exact I|exact J].
  - assert (HB := rok_begin g r R K7). assert (W := chunks_within bot top g r R (or_intror (conj K7 K5))). assert (Ee := o_end _ _ R).
    destruct (o_begin _ _ R) as (e & t & E1 & E2). assert (Ie : In e (g_chunks g)) by (rewrite E1; left; reflexivity).
    destruct (stacked_in _ _ _ _ K7 Ie) as (J1 & J2 & (Q1&Q2&Q3&Q4&Q5&Q6)).
    rewrite El. rewrite pick_head by lia. rewrite Wc. assert (Sn := sum_nonneg _ _ _ K7).
    assert (Pos : 0 < sum (g_chunks g)). { rewrite E1 in K7 |- *. destruct K7 as (_ & _ & S2). cbn [sum]. assert (S3 := sum_nonneg _ _ _ S2). lia. }
    destruct (Z.eqb_spec (sum (g_chunks g)) 0); [lia|].
    destruct (cover_ok dbg r sp (g_chunks g)) as (r1 & -> & F1 & F2 & F3 & F4); [lia|lia|lia|left; exact (o_info _ _ R)|exact W|].
    assert (Fb := o_base _ _ _ _ F4). assert (Fn := o_n _ _ _ _ F4). cbn [bind]. rewrite asrt_true by (rewrite Fb, Z.eqb_refl; apply orb_true_r). cbn [bind].
    rewrite Z.min_r in F1 by lia. assert (W1 : within (r_begin r1) (r_end r1) (g_chunks g)) by (intros d I; destruct (W d I); split; [lia|assumption]).
    destruct (rdown_span (r_begin r1)) as [D1 D2]. destruct (rup_span (r_end r1)) as [U1 U2]. rewrite <- Fb in D1, D2.
    rewrite (w64_small (sp - i_base (r_info r1))) by lia. set (j := (sp - i_base (r_info r1)) / 16).
    assert (Hj : 0 <= j < 2 ^ 60) by (unfold j; clear - D1 F1 R2 K2 K4 K5 L2 K3 R1 L1; lia).
    assert (Ew : w64 (w64 (j - 1) + 1) = j). { unfold w64. rewrite Zplus_mod_idemp_l. replace (j - 1 + 1) with j by lia. apply Z.mod_small. lia. }
    assert (Up : rup (r_end r1) SPAN <= r_end r1 + 1024) by (unfold rup, SPAN; lia).
    assert (Nw : i_nwords (r_info r1) * NBITS < 2 ^ 63) by (unfold SPAN, NBITS in *; clear - Fn Up F2 D1 F1 R1 R2 L1 Ee K2; lia).
    rewrite (loop_ok (s_mem s) (g_ctr g) (sum (g_chunks g)) ltac:(lia) (g_chunks g) (g_sp g) r1 (w64 (j - 1)) 0 _ K7).
    + cbn [bind app]. eexists. split; [reflexivity|]. split; [split|split; [reflexivity|]].
      * constructor; cbn [s_mem s_recs]; [apply Vc|intros d I; apply V; right; exact I|exact M].
      * intros B d c I J. apply (D B d c); [right; exact I|exact J].
      * intros x Hx. unfold query. cbn [s_recs s_mem]. rewrite El. rewrite (pick_skip x r l) by lia. destruct (pick x l) as [[[h q] t']|]; reflexivity.
    + rewrite E1. discriminate.
    + exact W1.
    + exact Fb.
    + lia.
    + lia.
    + rewrite Ew. lia.
    + rewrite Ew. intros k Hk. apply (o_bits _ _ _ _ F4). lia.
    + rewrite Ew. intros c Ic. destruct (idx_in _ _ _ _ c F4 W1 Ic) as [P1 P2]. split; [|apply P1].
      destruct (stacked_in _ _ _ _ K7 Ic) as (S1 & S2 & (?&?&?&?&?&?)). unfold j. apply Z.div_le_mono; lia.
    + intros c Ic. apply (Ww c Ic).
    + intros B c Ic. apply (D B g c); [left; reflexivity|exact Ic].
    + lia.
    + lia.
    + rewrite Ew. rewrite Nat2Z.inj_succ, Z2Nat.id; [lia|]. unfold SPAN, NBITS in *. clear - Fn U1 D1 F1 F2 Ee L2 K4 K5. lia.
    + exact Nw.
Qed.
End P.
