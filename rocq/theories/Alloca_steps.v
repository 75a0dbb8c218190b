(* Stack allocation: each step keeps the invariant. *)
From Verif Require Import Base Big_model Big_field Insert_model Insert_proof Heap_model Heap_proof Heap_calls
  Alloca_model Alloca_spec Alloca_proof Alloca_cover Alloca_calls.

Lemma mt_inv l g G : mt l (g :: G) -> (g_chunks g = [] /\ mt l G) \/ exists r t, l = r :: t /\ rok g r /\ mt t G.
Proof. intro H. inversion H; subst; [left; split; assumption|right; eauto]. Qed.

Section P.
Variables bot top : Z.
Hypothesis Har : area bot top.
Variable dbg : bool.
Notation chain := (chain bot top).
Notation Core := (Core bot top).
Notation AInv := (AInv bot top dbg).

Lemma query_large s G g c x : Core s G -> In g G -> In c (g_chunks g) -> largeb c = true -> k_ptr c <= x < k_ptr c + k_req c ->
  query dbg s x = if dbg then Abort else Ok Unindexed.
Proof.
  intros V I J L Hx. assert (Vc := v_chain _ _ _ _ V). destruct (chain_in _ _ _ _ Vc I) as (K1 & K2 & K3 & K4 & K5 & K6 & K7).
  destruct (stacked_in _ _ _ _ K7 J) as (J1 & J2 & (C1&C2&C3&C4&C5&C6)).
  destruct (pick_frame _ _ _ _ (v_mt _ _ _ _ V) Vc g I) as (r & R & P). { intro E. rewrite E in J. destruct J. }
  assert (W := chunks_within bot top g r R (or_intror (conj K7 K5))). destruct (W c J) as [Wc _]. assert (Ee := o_end _ _ R).
  destruct (P x) as (h & t & Ep). { lia. }
  unfold query. rewrite Ep, (o_prom _ _ R). rewrite (proj2 (prom_in (g_chunks g) x)); [reflexivity|]. exists c. repeat split; try assumption; lia.
Qed.

(* a query that answers a chunk answers one that stands *)
Lemma rfind_sound bits lo g : forall k j, rfind bits lo k g = Some j -> lo <= j <= k /\ bits j = true.
Proof.
  induction g as [|g IH]; intros k j E; [discriminate|]. cbn [rfind] in E. destruct (Z.ltb_spec k lo); [discriminate|].
  destruct (bits k) eqn:B; [injection E as <-; split; [lia|exact B]|]. destruct (IH _ _ E). split; [lia|assumption].
Qed.
Lemma via_sound f x sz o z y : 0 <= i_base f -> via_bitmap dbg f x sz = Ok (Some (o, z, y)) -> exists k, 0 <= k < i_nwords f * NBITS /\ i_bits f k = true /\ o = i_base f + 16 * k.
Proof.
  intros B0 E. unfold via_bitmap in E. change MALLOC_ALIGN with 16 in E. set (hidden := if dbg then 0 else _) in E.
  assert (Hh : 0 <= hidden). { subst hidden. destruct dbg; [lia|]. cbv zeta. destruct (Z.ltb_spec (i_base f) (rdown (w64 (x - i_unprom f)) SPAN)); [|lia].
    set (q := rdown _ _) in *. clearbody q. unfold NBITS, SPAN. lia. }
  clearbody hidden. set (st := (w64 (x - i_base f) / 16) mod 2 ^ 32) in *. clearbody st.
  destruct (negb _) eqn:G; [discriminate|]. apply negb_false_iff, andb_prop in G. destruct G as [G1 G2].
  destruct (rfind _ _ _ _) as [k|] eqn:F; [|discriminate]. apply rfind_sound in F. destruct F as [F1 F2]. injection E as <- _ _.
  exists k. split; [lia|]. split; [exact F2|reflexivity].
Qed.
Lemma query_sound s G x o z y : Core s G -> query dbg s x = Ok (Chunk o z y) ->
  exists g c, In g G /\ In c (g_chunks g) /\ o = k_ptr c.
Proof.
  intros V E. unfold query in E. destruct (pick x (s_recs s)) as [[[h r] t]|] eqn:P; [|discriminate]. apply pick_in in P. destruct P as [P1 P2].
  destruct (mt_in _ _ _ (v_mt _ _ _ _ V) P1) as (g & I & R). destruct (existsb _ _); [destruct dbg; discriminate|].
  destruct (asrt dbg _); try discriminate. cbn [bind] in E. destruct (via_bitmap dbg (r_info r) x _) as [[[[o' z'] y']|]| | |] eqn:B; cbn [bind] in E; try discriminate.
  injection E as -> _ _. assert (O := o_info _ _ R). destruct (chain_in _ _ _ _ (v_chain _ _ _ _ V) I) as (K1 & K2 & K3 & K4 & K5 & K6 & K7).
  assert (HB := rok_begin g r R K7). destruct Har as (R1 & R2 & R3).
  apply via_sound in B. 2: { rewrite (o_base _ _ _ _ O). destruct (rdown_span (r_begin r)). lia. }
  destruct B as (k & B1 & B2 & B3). apply (o_bits _ _ _ _ O) in B2; [|exact B1]. destruct B2 as (c & I2 & E2). exists g, c. split; [exact I|]. split; [exact I2|]. lia.
Qed.

(* ---- alloca ---- *)
Definition block (lo req site : Z) : chunk := mkK lo (lo + alloca_size req) (user_of lo) req site.
Definition grown (g : frame) (lo req site : Z) : frame := mkF (g_ctr g) (g_bp g) lo (block lo req site :: g_chunks g).

Lemma block_ok g G lo req site : chain (g :: G) -> can_alloca bot g lo req ->
  cok (block lo req site) /\ usable_of lo (alloca_size req) = k_hi (block lo req site) - k_ptr (block lo req site) /\
  2 ^ 20 <= lo /\ lo + alloca_size req <= g_sp g /\ g_sp g <= g_ctr g /\ g_ctr g + 8 <= g_bp g /\ g_bp g <= 2 ^ 47 /\ lo <= user_of lo - 8 /\
  user_of lo < lo + alloca_size req - 8 /\ alloca_size req mod 16 = 0 /\ g_bp g <= top /\ bot <= lo.
Proof.
  intros C (A1 & A2 & A3 & A4). destruct (chain_in _ _ _ g C (or_introl eq_refl)) as (K1 & K2 & K3 & K4 & K5 & K6 & K7).
  destruct Har as (R1 & R2 & R3). destruct (size_spec req ltac:(lia)) as [S1 S2]. assert (L : 0 <= lo < 2 ^ 48) by lia. destruct (user_spec lo L A2) as [U1 U2].
  rewrite (usable_spec lo) by (try assumption; lia). unfold block, cok; cbn [k_lo k_hi k_ptr k_req k_site].
  split; [|repeat split; try assumption; try lia]. repeat split; try assumption; try lia.
Qed.

Lemma grown_chain g G lo req site : chain (g :: G) -> can_alloca bot g lo req -> chain (grown g lo req site :: G).
Proof.
  intros C A. destruct (block_ok g G lo req site C A) as (B1 & B2 & B3 & B4 & B5 & B6 & B7 & B8 & B9 & B10 & B11 & B12).
  destruct C as (C1 & C2 & C3 & C4 & C5 & C6 & C7). cbn [Alloca_proof.chain grown g_bp g_ctr g_sp g_chunks stacked].
  split; [exact C1|]. split; [exact C2|]. split; [exact C3|]. split; [exact C4|]. split; [exact B12|]. split; [|exact C7]. split; [cbn; lia|]. split; [exact B1|].
  cbn [block k_hi]. exact (stacked_lower _ _ _ _ C6 B4).
Qed.

Lemma alloca_core s g G lo req site : Core s (g :: G) -> can_alloca bot g lo req ->
  exists s', Core s' (grown g lo req site :: G) /\
    do_alloca dbg s lo req site (g_ctr g) (g_bp g) =
      do _ <- asrt dbg (k_hi (block lo req site) - user_of lo <=? LIMIT) ;
      do _ <- (if dbg then
             do a <- query dbg s' (user_of lo) ;
             match a with Chunk o _ _ => asrt dbg (o =? user_of lo) | _ => Abort end
           else Ok tt) ;
      Ok (s', user_of lo).
Proof.
  intros V A. assert (Vc := v_chain _ _ _ _ V). assert (Gc := grown_chain g G lo req site Vc A).
  destruct (block_ok g G lo req site Vc A) as (B1 & B2 & B3 & B4 & B5 & B6 & B7 & B8 & B9 & B10 & B11 & B12).
  assert (Cg := chain_in _ _ _ g Vc (or_introl eq_refl)). destruct Cg as (K1 & K2 & K3 & K4 & K5 & K6 & K7).
  set (c := block lo req site) in *. set (u := user_of lo) in *. change (user_of lo) with u. assert (Eu : k_ptr c = u) by reflexivity. assert (Eh : k_hi c = lo + alloca_size req) by reflexivity.
  assert (Er : k_req c = req) by reflexivity.
  unfold do_alloca. cbv zeta. fold u. rewrite B2. rewrite Eu. set (us := k_hi c - u) in *.
  set (m1 := wr (zero (s_mem s) lo (alloca_size req)) (u - 8) us).
  set (m2 := wr m1 (g_ctr g) (w64 (m1 (g_ctr g) + us))).
  (* memory *)
  assert (Mz : forall x, lo + alloca_size req <= x -> m1 x = s_mem s x).
  { intros x Hx. unfold m1, wr, zero. destruct (Z.eqb_spec x (u - 8)); [lia|]. destruct (Z.leb_spec lo x), (Z.ltb_spec x (lo + alloca_size req)); cbn [andb]; try reflexivity; lia. }
  destruct (v_words _ _ _ _ V g (or_introl eq_refl)) as [Wc Ww].
  assert (Mc : m1 (g_ctr g) = sum (g_chunks g)) by (rewrite Mz by lia; exact Wc).
  assert (Sn := sum_nonneg _ _ _ K7). 
  assert (Mc2 : m2 (g_ctr g) = us + sum (g_chunks g)). { unfold m2, wr. rewrite Z.eqb_refl, Mc. rewrite w64_small by lia. lia. }
  assert (Mu : m2 (u - 8) = us). { unfold m2, wr. destruct (Z.eqb_spec (u - 8) (g_ctr g)); [lia|]. unfold m1, wr. rewrite Z.eqb_refl. reflexivity. }
  assert (Mm : m2 (k_hi c - 8) = 0).
  { unfold m2, wr. destruct (Z.eqb_spec (k_hi c - 8) (g_ctr g)); [lia|]. unfold m1, wr, zero. destruct (Z.eqb_spec (k_hi c - 8) (u - 8)); [lia|].
    destruct (Z.leb_spec lo (k_hi c - 8)), (Z.ltb_spec (k_hi c - 8) (lo + alloca_size req)); cbn [andb]; try reflexivity; lia. }
  set (m3 := wr m2 (k_hi c - 8) (store_site (m2 (k_hi c - 8)) site)).
  assert (M3 : forall x, lo + alloca_size req <= x -> x <> g_ctr g -> m3 x = s_mem s x).
  { intros x Hx Nx. unfold m3, wr. destruct (Z.eqb_spec x (k_hi c - 8)); [lia|]. unfold m2, wr. destruct (Z.eqb_spec x (g_ctr g)); [congruence|]. apply Mz, Hx. }
  assert (Wd : forall d, In d (grown g lo req site :: G) -> words m3 d).
  { intros d [<-|I].
    - split; cbn [grown g_ctr g_chunks].
      + unfold m3, wr. destruct (Z.eqb_spec (g_ctr g) (k_hi c - 8)); [lia|]. rewrite Mc2. reflexivity.
      + intros e [<-|Ie].
        * fold c. split; [|unfold m3, wr; rewrite Z.eqb_refl, Mm; reflexivity].
          rewrite Eu. unfold m3, wr. destruct (Z.eqb_spec (u - 8) (k_hi c - 8)); [lia|]. exact Mu.
        * destruct (stacked_in _ _ _ _ K7 Ie) as (E1 & E2 & (?&?&?&?&?&?)). rewrite !M3 by lia. exact (Ww e Ie).
    - assert (Fc := proj2 (proj2 (proj2 (proj2 (proj2 (proj2 Vc)))))). apply (words_same bot top (s_mem s) m3 G d Fc I); [|exact (v_words _ _ _ _ V d (or_intror I))].
      destruct Vc as (C1 & _). intros x Hx. apply M3; lia. }
  (* the record *)
  unfold usable at 1. rewrite Mu.
  assert (P : exists h r t, (match pick (g_ctr g) (s_recs s) with Some hrt => Ok hrt | None => if u <? g_bp g then Ok ([], mkR u (g_bp g) info0 [], s_recs s) else UB end) = Ok (h, r, t) /\
      h = [] /\ r_end r = g_bp g /\ 2 ^ 20 <= r_begin r < r_end r /\ (iok (r_begin r) (r_end r) (g_chunks g) (r_info r) \/ (r_info r = info0 /\ g_chunks g = [])) /\
      within (r_begin r) (r_end r) (g_chunks g) /\ r_prom r = proms (g_chunks g) /\ u <= r_begin r /\ mt t G).
  { destruct (mt_inv _ _ _ (v_mt _ _ _ _ V)) as [[E M]|(r & l & El & R & M)].
    - rewrite pick_none. 2: { intros r I. destruct Vc as (C1 & _ & _ & C4 & _ & _ & C7). assert (Z1 := mt_above _ _ _ _ M C7 r I). lia. }
      destruct (Z.ltb_spec u (g_bp g)); [|lia]. exists [], (mkR u (g_bp g) info0 []), (s_recs s). rewrite E. cbn [r_begin r_end r_info r_prom].
      split; [reflexivity|]. split; [reflexivity|]. split; [reflexivity|]. split; [lia|]. split; [right; split; reflexivity|]. split; [intros e []|]. split; [reflexivity|]. split; [lia|exact M].
    - rewrite El. assert (HB := rok_begin g r R K7). assert (W := chunks_within bot top g r R (or_intror (conj K7 K5))). assert (Ee := o_end _ _ R).
      destruct (o_begin _ _ R) as (e & t & E1 & E2). assert (Ie : In e (g_chunks g)) by (rewrite E1; left; reflexivity).
      destruct (stacked_in _ _ _ _ K7 Ie) as (J1 & J2 & (?&?&?&?&?&?)). 
      rewrite pick_head by lia. exists [], r, l. split; [reflexivity|]. split; [reflexivity|]. split; [exact Ee|]. split; [lia|]. split; [left; exact (o_info _ _ R)|].
      split; [exact W|]. split; [exact (o_prom _ _ R)|]. split; [lia|exact M]. }
  destruct P as (h & r & t & -> & -> & Ee & Lr & Oi & W & Ep & Hu & M). 
  destruct (cover_ok dbg r u (g_chunks g)) as (r1 & Ec & F1 & F2 & F3 & F4); [lia|lia|lia|exact Oi|exact W|].
  rewrite Z.min_r in F1 by exact Hu.
  destruct (insert_ok dbg r1 t m2 (g_chunks g) c) as (f & I1 & I2).
  { exact F4. } { intros e Ie. destruct (W e Ie). split; [lia|assumption]. } { exact B1. } { rewrite F1. reflexivity. } { lia. } { lia. } { lia. } { rewrite Eu. exact Mu. }
  rewrite Eu, Er in I1. exists (mkS (mkR (r_begin r1) (r_end r1) f (if largeb c then (u, u + req) :: r_prom r1 else r_prom r1) :: t) m3). split.
  - constructor; [exact Gc|exact Wd|]. cbn [s_recs]. apply mt_some; [|exact M]. constructor; cbn [r_end r_begin r_info r_prom grown g_bp g_chunks].
    + rewrite F2. exact Ee.
    + exists c, (g_chunks g). split; [reflexivity|]. rewrite F1. symmetry; exact Eu.
    + exact I2.
    + fold c. unfold proms. cbn [filter]. destruct (largeb c); cbn [map]; [rewrite Eu, Er|]; rewrite F3, Ep; reflexivity.
  - destruct (asrt dbg (us <=? LIMIT)); try reflexivity. cbn [bind app]. rewrite Ec. cbn [bind app]. rewrite I1. cbn [bind]. fold m3. reflexivity.
Qed.
End P.
