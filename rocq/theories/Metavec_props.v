(* Theorems about metadata vectors: see properties.jsonl C39. *)
From Verif Require Import Base Big_model Big_field Metavec_model.
From Coq Require Import Permutation Sorted.

(* the specification: among records in order of address, the one with the highest address at or
   below the one asked for *)
Definition below (recs : list (Z * Z)) (addr : Z) (i : nat) : Prop :=
  exists r, nth_error recs i = Some r /\ fst r <= addr /\
  (forall j r', nth_error recs j = Some r' -> fst r' <= addr -> (j <= i)%nat).
Definition sorted (l : list (Z * Z)) := StronglySorted (fun a b => fst a < fst b) l.

Lemma int32_small x : - 2 ^ 31 <= x < 2 ^ 31 -> int32 x = x.
Proof. change (2 ^ 31) with 2147483648. unfold int32. change W32 with 4294967296. change (2 ^ 31) with 2147483648. intros. destruct (_ <? _) eqn:E; lia. Qed.
Lemma minsert_perm x l : Permutation (minsert x l) (x :: l).
Proof. induction l as [|y l IH]; cbn; auto. destruct (_ <=? _); auto. rewrite IH. apply perm_swap. Qed.
Lemma msort_perm l : Permutation (msort l) l.
Proof. induction l as [|x l IH]; cbn; auto. rewrite minsert_perm. constructor. auto. Qed.
Definition close (l : list (Z * Z)) : Prop := forall a b, In a l -> In b l -> fst a - fst b < 2 ^ 31.
Lemma minsert_sorted x l : close (x :: l) -> ~ In (fst x) (map fst l) -> sorted l -> sorted (minsert x l).
Proof.
  intros C N HS. unfold sorted in *. induction HS as [|y l HS IH HF]; cbn [minsert]; [repeat constructor|].
  assert (M : mcmp x y = fst x - fst y).
  { unfold mcmp. apply int32_small. pose proof (C x y (or_introl eq_refl) (or_intror (or_introl eq_refl))). pose proof (C y x (or_intror (or_introl eq_refl)) (or_introl eq_refl)). change (2 ^ 31) with 2147483648 in *. lia. }
  rewrite M. assert (fst x <> fst y) by (intros E; apply N; left; auto).
  destruct (_ <=? _) eqn:E.
  - constructor; [constructor; auto|]. constructor; [lia|]. eapply Forall_impl; [|exact HF]. cbn. intros; lia.
  - constructor.
    + apply IH. { intros a b Ha Hb. apply C; [destruct Ha as [<-|Ha]|destruct Hb as [<-|Hb]]; cbn; auto. } intros I; apply N; right; auto.
    + rewrite minsert_perm. constructor; [lia|auto].
Qed.
Lemma msort_sorted l : close l -> NoDup (map fst l) -> sorted (msort l).
Proof.
  induction l as [|x l IH]; intros C N; cbn; [constructor|]. inversion N as [|? ? N1 N2]; subst.
  assert (C' : close l) by (intros a b Ha Hb; apply C; right; auto).
  apply minsert_sorted; auto.
  - intros a b Ha Hb. apply C; [destruct Ha as [<-|Ha]|destruct Hb as [<-|Hb]]; cbn; auto; right; eapply Permutation_in; eauto using msort_perm.
  - intros I. apply N1. eapply Permutation_in; [|exact I]. apply Permutation_map, msort_perm.
Qed.

(* ---- the specification by counting ---- *)
Definition nle (l : list (Z * Z)) (addr : Z) : nat := length (filter (fun r => fst r <=? addr) l).
Lemma nle_split l addr : sorted l -> exists l1 l2, l = l1 ++ l2 /\ Forall (fun r => fst r <= addr) l1 /\ Forall (fun r => addr < fst r) l2 /\ nle l addr = length l1.
Proof.
  unfold sorted. induction 1 as [|x l HS IH HF]; [exists [], []; repeat split; auto|].
  destruct (Z_le_dec (fst x) addr) as [L|L].
  - destruct IH as (l1 & l2 & E & F1 & F2 & N). exists (x :: l1), l2. rewrite E. repeat split; auto.
    unfold nle. rewrite <- E. cbn. destruct (_ <=? _) eqn:K; [|lia]. cbn. f_equal. exact N.
  - exists [], (x :: l). repeat split; auto. { constructor; [lia|]. eapply Forall_impl; [|exact HF]. cbn. intros; lia. }
    unfold nle. cbn. destruct (_ <=? _) eqn:K; [lia|].
    assert (Z : forall t, Forall (fun b => fst x < fst b) t -> filter (fun r : Z * Z => fst r <=? addr) t = []).
    { induction 1 as [|y t Hy Ht IHt]; cbn; auto. destruct (fst y <=? addr) eqn:Q; [lia|auto]. }
    rewrite (Z l HF). reflexivity.
Qed.
Lemma below_nle l addr : sorted l -> (0 < nle l addr)%nat -> below l addr (nle l addr - 1).
Proof.
  intros HS P. destruct (nle_split l addr HS) as (l1 & l2 & E & F1 & F2 & N). rewrite N in *.
  destruct l1 as [|x l1] using rev_ind; [cbn in P; lia|]. rewrite app_length in *. cbn in *.
  replace (length l1 + 1 - 1)%nat with (length l1) by lia. exists x. rewrite E. split.
  { rewrite <- app_assoc. cbn. rewrite nth_error_app2, Nat.sub_diag by lia. reflexivity. }
  split. { rewrite Forall_app in F1. destruct F1 as (_ & F1). inversion F1; auto. }
  intros j r' Hj Hr. destruct (Nat.le_gt_cases j (length l1)) as [|G]; auto. exfalso.
  rewrite nth_error_app2 in Hj by (rewrite app_length; cbn; lia). apply nth_error_In in Hj. rewrite Forall_forall in F2. specialize (F2 _ Hj). lia.
Qed.
Lemma nle_zero l addr : nle l addr = 0%nat -> forall r, In r l -> addr < fst r.
Proof.
  unfold nle. intros H r I. destruct (Z_lt_dec addr (fst r)); auto. exfalso.
  assert (K : In r (filter (fun r => fst r <=? addr) l)) by (apply filter_In; split; auto; lia).
  destruct (filter _ l); [easy|discriminate].
Qed.

Section G.
Context (dbg : bool) (p : mvp) (a0 range cap : Z).
Context (Ala : mla p = 0) (Asc : 0 <= msc p) (Amax : 0 <= mlmax p) (A0 : 0 < a0) (A64 : a0 mod 64 < 32)
        (Aal : a0 mod 2 ^ msc p = 0) (Ral : range mod 2 ^ msc p = 0) (Rng : 0 < range < 2 ^ 31).
Definition inr (a : Z) : Prop := a0 <= a < a0 + range.
Definition sc (a : Z) : Z := (a - a0) / 2 ^ msc p.

Lemma scale_pos : 0 < 2 ^ msc p.
Proof. apply Z.pow_pos_nonneg; lia. Qed.
Lemma sidx_is a : inr a -> sidx_of p a0 a = sc a.
Proof.
  intros H. unfold sidx_of, sc. rewrite !Z.shiftr_div_pow2 by lia. pose proof scale_pos as P. unfold inr in H.
  assert (E : a / 2 ^ msc p - a0 / 2 ^ msc p = (a - a0) / 2 ^ msc p).
  { apply Z_div_exact_full_2 in Aal; [|lia]. replace (a - a0) with (a + (- (a0 / 2 ^ msc p)) * 2 ^ msc p) by lia. rewrite Z.div_add by lia. lia. }
  rewrite E. apply Z.mod_small. change W32 with 4294967296. change (2 ^ 31) with 2147483648 in Rng.
  split; [apply Z.div_pos; lia|]. apply Z.div_lt_upper_bound; [lia|]. nia.
Qed.
Lemma sc_mono a b : a <= b -> sc a <= sc b.
Proof. intros. apply Z.div_le_mono; [apply scale_pos|lia]. Qed.
Lemma sc_nonneg a : inr a -> 0 <= sc a.
Proof. intros H. unfold inr in H. apply Z.div_pos; [lia|apply scale_pos]. Qed.
Lemma sc_lt a : inr a -> sc a < range / 2 ^ msc p.
Proof.
  intros H. unfold inr in H. pose proof scale_pos as P. apply Z.div_lt_upper_bound; [lia|]. apply Z_div_exact_full_2 in Ral; lia.
Qed.
Lemma same_sc a b : inr a -> inr b -> (Z.shiftr a (msc p) =? Z.shiftr b (msc p)) = (sc a =? sc b).
Proof.
  intros Ha Hb. rewrite !Z.shiftr_div_pow2 by lia. unfold sc. pose proof scale_pos as P.
  apply Z_div_exact_full_2 in Aal; [|lia].
  assert (E : forall x, (x - a0) / 2 ^ msc p = x / 2 ^ msc p - a0 / 2 ^ msc p).
  { intros x. replace (x - a0) with (x + (- (a0 / 2 ^ msc p)) * 2 ^ msc p) by lia. rewrite Z.div_add by lia. lia. }
  rewrite !E. destruct (_ =? _) eqn:Q; destruct (_ - _ =? _) eqn:Q2; auto; lia.
Qed.
Lemma first_is a : inr a -> (1 + Z.shiftr a (msc p) - Z.shiftr a0 (msc p)) mod W32 = 1 + sc a.
Proof.
  intros Ha. pose proof (sidx_is a Ha) as E. unfold sidx_of in E. pose proof (sc_nonneg a Ha). pose proof (sc_lt a Ha) as L.
  assert (LL : range / 2 ^ msc p <= range). { pose proof scale_pos. apply Z.div_le_upper_bound; nia. }
  revert E. rewrite !Z.shiftr_div_pow2 by lia. intros E. unfold sc in *. pose proof scale_pos as P.
  assert (E2 : (a - a0) / 2 ^ msc p = a / 2 ^ msc p - a0 / 2 ^ msc p).
  { apply Z_div_exact_full_2 in Aal; [|lia]. replace (a - a0) with (a + (- (a0 / 2 ^ msc p)) * 2 ^ msc p) by lia. rewrite Z.div_add by lia. lia. }
  rewrite E2 in *. change W32 with 4294967296. change (2 ^ 31) with 2147483648 in Rng. rewrite Z.mod_small by lia. lia.
Qed.
Lemma unit64 : unit p = 64.
Proof. unfold unit. rewrite Ala. reflexivity. Qed.
Lemma bases : rdown a0 32 = rdown a0 64.
Proof. clear - A64. unfold rdown. lia. Qed.
Lemma base_le : rdown a0 64 <= a0 < rdown a0 64 + 64.
Proof. clear. unfold rdown. lia. Qed.
Lemma bit_is a : inr a -> bit_for p a0 a = a - rdown a0 64.
Proof.
  intros H. unfold bit_for. rewrite Ala. rewrite Z.shiftr_0_r. change (Z.shiftl 32 0) with 32. rewrite bases.
  pose proof base_le. unfold inr in H. apply Z.mod_small. change W32 with 4294967296. change (2 ^ 31) with 2147483648 in Rng. lia.
Qed.
Lemma bit_fits a : inr a -> a - rdown a0 64 < nbits p a0 range.
Proof.
  intros H. unfold nbits. rewrite Ala, Z.shiftr_0_r, unit64. unfold inr in H.
  assert (a0 + range <= rup (a0 + range) 64) by (clear; unfold rup; lia). lia.
Qed.
Lemma short_fits : range / 2 ^ msc p <= nshort p a0 range.
Proof.
  unfold nshort. rewrite Z.shiftr_div_pow2, unit64 by lia. apply Z.div_le_mono; [apply scale_pos|].
  pose proof base_le. assert (a0 + range <= rup (a0 + range) 64) by (clear; unfold rup; lia). lia.
Qed.

(* ---- generation ---- *)
Definition fewer (l : list (Z * Z)) (q : Z) : Z := Z.of_nat (length (filter (fun r => sc (fst r) <? q) l)).
Definition gen_inv (ps : list (Z * Z)) (m : mv) (last : Z) (lw : option Z) : Prop :=
  mv_recs m = ps /\ mv_bits m = map (fun r => fst r - rdown a0 64) ps /\
  match lw with
  | None => ps = []
  | Some q0 => (exists r, In r ps /\ fst r = last) /\ (forall r, In r ps -> fst r <= last) /\ q0 = sc last /\
               (forall q, 0 <= q <= q0 -> sget (mv_short m) q = fewer ps q)
  end.

Lemma fewer_app l r q : fewer (l ++ [r]) q = fewer l q + (if sc (fst r) <? q then 1 else 0).
Proof. unfold fewer. rewrite filter_app, app_length. cbn. destruct (_ <? _); cbn; lia. Qed.
Lemma fewer_all l q : (forall r, In r l -> sc (fst r) < q) -> fewer l q = Z.of_nat (length l).
Proof.
  intros H. unfold fewer. f_equal. f_equal. induction l as [|a l IH]; auto. cbn. pose proof (H a (or_introl eq_refl)).
  destruct (_ <? _) eqn:E; [|lia]. f_equal. apply IH. intros; apply H; right; auto.
Qed.

Lemma gen_loop_ok : forall l ps m last lw, gen_inv ps m last lw -> sorted (ps ++ l) -> (forall r, In r (ps ++ l) -> inr (fst r)) ->
  Z.of_nat (length (ps ++ l)) <= cap -> Z.of_nat (length (ps ++ l)) <= 2 ^ mlmax p ->
  exists m' last' lw', gen_loop dbg p a0 range cap l m last lw = Ok (m', lw') /\ gen_inv (ps ++ l) m' last' lw'.
Proof.
  induction l as [|r l IH]; intros ps m last lw (G1 & G2 & G3) HS HI HC HM; cbn [gen_loop].
  { exists m, last, lw. split; auto. rewrite app_nil_r. split; auto. }
  assert (Ir : inr (fst r)) by (apply HI, in_or_app; right; left; auto).
  rewrite app_length in HC, HM. cbn [length] in HC, HM.
  rewrite G1. destruct (Z.of_nat (length ps) <? cap) eqn:E1; [|lia]. cbn [negb].
  destruct (fst r =? 0) eqn:E2. { unfold inr in Ir. lia. }
  rewrite (bit_is _ Ir). pose proof (bit_fits _ Ir). destruct (_ <? nbits p a0 range) eqn:E3; [|lia]. cbn [negb].
  assert (A1 : ps ++ r :: l = (ps ++ [r]) ++ l) by (rewrite <- app_assoc; auto).
  assert (PR : forall x, In x ps -> fst x < fst r).
  { intros x Ix. clear - HS Ix. unfold sorted in HS. induction ps as [|a ps IHp]; [easy|]. cbn in HS. inversion HS as [|? ? S1 S2]; subst.
    destruct Ix as [<-|Ix]; auto. rewrite Forall_forall in S2. apply S2. apply in_or_app. right. left. auto. }
  assert (B1 : mv_bits m ++ [fst r - rdown a0 64] = map (fun r => fst r - rdown a0 64) (ps ++ [r])) by (rewrite map_app, G2; auto).
  rewrite app_length. cbn [length].
  assert (LE : 1 <= Z.of_nat (length ps + 1)) by lia.
  pose proof (sc_nonneg _ Ir) as SN. pose proof (sc_lt _ Ir) as SL. pose proof short_fits as SF.
  assert (STEP : forall lo, (forall q, 0 <= q < lo -> sget (mv_short m) q = fewer ps q) -> 0 <= lo <= sc (fst r) -> (forall x, In x ps -> sc (fst x) < lo) ->
     gen_inv (ps ++ [r]) (mkMv (ps ++ [r]) (mv_bits m ++ [fst r - rdown a0 64]) ((lo, sc (fst r), (Z.of_nat (length ps + 1) - 1) mod 2 ^ mlmax p) :: mv_short m)) (fst r) (Some (sc (fst r)))).
  { intros lo Hlo Hl Hps. split; [auto|]. split; [exact B1|]. split. { exists r. split; auto. apply in_or_app. right. left. auto. }
    split. { intros x Ix. apply in_app_or in Ix. destruct Ix as [Ix|[<-|[]]]; [specialize (PR _ Ix)|]; lia. }
    split; [auto|]. intros q Hq. cbn [mv_short sget]. rewrite fewer_app. destruct (sc (fst r) <? q) eqn:K; [lia|].
    destruct ((lo <=? q) && (q <=? sc (fst r))) eqn:B.
    - rewrite fewer_all. 2:{ intros x Ix. specialize (Hps x Ix). lia. } rewrite Z.mod_small by lia. lia.
    - rewrite Hlo by lia. lia. }
  destruct lw as [q0|].
  - destruct G3 as ((r0 & I0 & E0) & LM & -> & GS).
    assert (IL : inr last) by (rewrite <- E0; apply HI, in_or_app; auto).
    assert (LR : last < fst r) by (rewrite <- E0; auto).
    assert (NZ : (Z.of_nat (length ps + 1) =? 1) = false) by (destruct ps; [easy|cbn [length]; clear; lia]).
    rewrite NZ. cbn [orb]. rewrite (same_sc _ _ IL Ir). pose proof (sc_mono last (fst r) ltac:(lia)) as SM.
    destruct (sc last =? sc (fst r)) eqn:E4; cbn [negb].
    + rewrite A1. apply IH.
      * split; [auto|]. split; [exact B1|]. split. { exists r. split; auto. apply in_or_app. right. left. auto. }
        split. { intros x Ix. apply in_app_or in Ix. destruct Ix as [Ix|[<-|[]]]; [specialize (PR _ Ix)|]; lia. }
        split; [lia|]. intros q Hq. cbn [mv_short]. rewrite fewer_app. destruct (sc (fst r) <? q) eqn:K; [lia|]. rewrite GS by lia. lia.
      * rewrite <- A1; auto.
      * rewrite <- A1; auto.
      * rewrite <- A1, app_length. cbn [length]. lia.
      * rewrite <- A1, app_length. cbn [length]. lia.
    + rewrite (first_is _ IL), (sidx_is _ Ir). rewrite asrt_true by lia. cbn [bind].
      destruct (sc (fst r) <? nshort p a0 range) eqn:E5; [|lia]. cbn [negb]. rewrite andb_false_r.
      pose proof (sc_nonneg _ IL). rewrite A1. apply IH.
      * apply STEP; [intros q Hq; apply GS; lia|lia|]. intros x Ix. pose proof (sc_mono _ _ (LM x Ix)). lia.
      * rewrite <- A1; auto.
      * rewrite <- A1; auto.
      * rewrite <- A1, app_length. cbn [length]. lia.
      * rewrite <- A1, app_length. cbn [length]. lia.
  - destruct ps; [|easy]. cbn [length Nat.add]. change (Z.of_nat 1 =? 1) with true. cbn [orb]. cbv iota. rewrite (sidx_is _ Ir). rewrite asrt_true; [|clear - SN; lia]. cbn [bind].
    destruct (sc (fst r) <? nshort p a0 range) eqn:E5; [|lia]. cbn [negb]. rewrite andb_false_r.
    rewrite A1. apply IH.
    + apply (STEP 0); [intros; lia|lia|easy].
    + rewrite <- A1; auto.
    + rewrite <- A1; auto.
    + rewrite <- A1, app_length. cbn [length]. lia.
    + rewrite <- A1, app_length. cbn [length]. lia.
Qed.

(* ---- lookup ---- *)
Lemma cnt_bits l lo hi : cnt (map (fun r : Z * Z => fst r - rdown a0 64) l) (lo - rdown a0 64 + 1) (hi - rdown a0 64 + 1)
  = Z.of_nat (length (filter (fun r => (lo <? fst r) && (fst r <=? hi)) l)).
Proof.
  unfold cnt. f_equal. induction l as [|a l IH]; auto. cbn.
  replace ((lo - rdown a0 64 + 1 <=? fst a - rdown a0 64) && (fst a - rdown a0 64 <? hi - rdown a0 64 + 1)) with ((lo <? fst a) && (fst a <=? hi)) by lia.
  destruct (_ && _); cbn; auto.
Qed.
Lemma fewer_split l q : sorted l -> exists l1 l2, l = l1 ++ l2 /\ Forall (fun r => sc (fst r) < q) l1 /\ Forall (fun r => q <= sc (fst r)) l2 /\ fewer l q = Z.of_nat (length l1).
Proof.
  unfold sorted. induction 1 as [|x l HS IH HF]; [exists [], []; repeat split; auto|].
  destruct (Z_lt_dec (sc (fst x)) q) as [L|L].
  - destruct IH as (l1 & l2 & E & F1 & F2 & N). exists (x :: l1), l2. rewrite E. repeat split; auto.
    unfold fewer in *. rewrite <- E. cbn. destruct (_ <? _) eqn:K; [|lia]. cbn. lia.
  - exists [], (x :: l). repeat split; auto.
    { constructor; [lia|]. eapply Forall_impl; [|exact HF]. intros a Ha. cbn in Ha. pose proof (sc_mono (fst x) (fst a)). lia. }
    unfold fewer. cbn. destruct (_ <? _) eqn:K; [lia|].
    assert (Z : forall t, Forall (fun b => fst x < fst b) t -> filter (fun r : Z * Z => sc (fst r) <? q) t = []).
    { induction 1 as [|y t Hy Ht IHt]; cbn; auto. pose proof (sc_mono (fst x) (fst y)). destruct (sc (fst y) <? q) eqn:Q; [lia|auto]. }
    rewrite (Z l HF). reflexivity.
Qed.
Lemma filt_nil (g : Z * Z -> bool) l : (forall r, In r l -> g r = false) -> filter g l = [].
Proof. induction l as [|a l IH]; intros H; auto. cbn. rewrite (H a (or_introl eq_refl)). apply IH. intros; apply H; right; auto. Qed.
Lemma filt_all (g : Z * Z -> bool) l : (forall r, In r l -> g r = true) -> filter g l = l.
Proof. induction l as [|a l IH]; intros H; auto. cbn. rewrite (H a (or_introl eq_refl)). f_equal. apply IH. intros; apply H; right; auto. Qed.
Lemma filt_ext (g h : Z * Z -> bool) l : (forall r, In r l -> g r = h r) -> filter g l = filter h l.
Proof. induction l as [|a l IH]; intros H; auto. cbn. rewrite (H a (or_introl eq_refl)). rewrite IH; auto. intros; apply H; right; auto. Qed.

Lemma lookup_ok recs m addr : sorted recs -> (forall r, In r recs -> inr (fst r)) -> mv_recs m = recs ->
  mv_bits m = map (fun r => fst r - rdown a0 64) recs -> inr addr -> sc addr <> 2 ^ mlmax p - 1 ->
  (exists r, In r recs /\ sc addr <= sc (fst r)) -> sget (mv_short m) (sc addr) = fewer recs (sc addr) ->
  (forall r, hd_error recs = Some r -> fst r <> addr) ->
  idx_le p a0 range m addr = Ok (if (nle recs addr =? 0)%nat then None else Some (Z.of_nat (nle recs addr) - 1)).
Proof.
  intros HS HI E1 E2 Ia NS (rl & Il & Ll) SG NF. unfold idx_le. rewrite (sidx_is _ Ia).
  destruct (sc addr =? 2 ^ mlmax p - 1) eqn:K; [lia|]. pose proof (sc_lt _ Ia). pose proof short_fits.
  destruct (sc addr <? nshort p a0 range) eqn:K2; [|lia]. cbn [negb]. rewrite SG, E1.
  destruct (fewer_split recs (sc addr) HS) as (l1 & l2 & E & F1 & F2 & N). rewrite N, Nat2Z.id.
  destruct l2 as [|r l2].
  { exfalso. rewrite app_nil_r in E. subst l1. rewrite Forall_forall in F1. specialize (F1 _ Il). lia. }
  rewrite E, nth_error_app2, Nat.sub_diag by lia. cbn [nth_error]. destruct r as (ea, d). rewrite <- E.
  assert (L1 : forall r, In r l1 -> fst r < addr).
  { intros r Ir. rewrite Forall_forall in F1. specialize (F1 _ Ir). destruct (Z_lt_dec (fst r) addr); auto. pose proof (sc_mono addr (fst r)). lia. }
  assert (L2 : forall r, In r l2 -> ea < fst r).
  { intros r Ir. rewrite E in HS. clear - HS Ir. unfold sorted in HS. induction l1 as [|a l1 IH]; cbn in HS; inversion HS as [|? ? S1 S2]; subst; auto.
    rewrite Forall_forall in S2. apply (S2 _ Ir). }
  assert (NL : nle recs addr = (length l1 + (if (ea <=? addr)%Z then 1 else 0) + length (filter (fun r : Z * Z => ((ea <? fst r) && (fst r <=? addr))%Z%bool) l2))%nat).
  { unfold nle. rewrite E, filter_app, app_length. rewrite (filt_all _ l1) by (intros r Ir; specialize (L1 r Ir); lia).
    cbn [filter fst]. rewrite (filt_ext (fun r => fst r <=? addr) (fun r => (ea <? fst r) && (fst r <=? addr)) l2) by (intros r Ir; specialize (L2 r Ir); lia).
    destruct (ea <=? addr); cbn [length]; lia. }
  assert (NC : Z.of_nat (length (filter (fun r => (ea <? fst r) && (fst r <=? addr)) recs)) = Z.of_nat (length (filter (fun r => (ea <? fst r) && (fst r <=? addr)) l2))).
  { rewrite E, filter_app. rewrite (filt_nil _ l1).
    2:{ intros r Ir. assert (fst r < ea); [|lia]. rewrite E in HS. clear - HS Ir. unfold sorted in HS. induction l1 as [|a l1 IH]; [easy|]. cbn in HS. inversion HS as [|? ? S1 S2]; subst.
        destruct Ir as [<-|Ir]; auto. rewrite Forall_forall in S2. apply (S2 (ea, d)). apply in_or_app. right. left. auto. }
    cbn [app filter fst]. destruct ((ea <? ea) && (ea <=? addr)) eqn:Q; [lia|]. auto. }
  destruct ((addr <=? ea) && (Z.of_nat (length l1) =? 0)) eqn:C1.
  { destruct l1 as [|? ?]; [|cbn in C1; lia]. assert (fst (ea, d) <> addr) by (apply NF; rewrite E; auto). cbn in *.
    assert (NLZ : nle recs addr = 0%nat). { rewrite NL. destruct (ea <=? addr) eqn:Q; [lia|]. rewrite filt_nil; auto. intros r Ir. specialize (L2 r Ir). lia. }
    rewrite NLZ. reflexivity. }
  destruct (addr <? ea) eqn:C2.
  { assert (FN : filter (fun r : Z * Z => (ea <? fst r) && (fst r <=? addr)) l2 = []) by (apply filt_nil; intros r Ir; specialize (L2 r Ir); lia).
    rewrite FN in NL. cbn [length] in NL. destruct (ea <=? addr) eqn:Q; [lia|]. rewrite NL.
    destruct (_ =? 0)%nat eqn:Z0; [lia|]. f_equal. f_equal. lia. }
  destruct (ea =? addr) eqn:C3.
  { assert (FN : filter (fun r : Z * Z => (ea <? fst r) && (fst r <=? addr)) l2 = []) by (apply filt_nil; intros r Ir; specialize (L2 r Ir); lia).
    rewrite FN in NL. cbn [length] in NL. destruct (ea <=? addr) eqn:Q; [|lia]. rewrite NL.
    destruct (_ =? 0)%nat eqn:Z0; [lia|]. f_equal. f_equal. lia. }
  rewrite E2, unit64. rewrite cnt_bits, NC, NL. destruct (ea <=? addr) eqn:Q; [|lia].
  destruct (_ =? 0)%nat eqn:Z0; [lia|]. f_equal. f_equal. lia.
Qed.
End G.

(* C39: a lookup gives the last record at or below the address -- for byte-aligned records, of
   distinct addresses; a first address in the lower half of a bitmap word; whole shortcut ranges;
   an address not in a shortcut range after the last record's and not that of the first record *)
Theorem metavec_lookup_partial : forall dbg p a0 range cap raws addr,
  mla p = 0 -> 0 <= msc p -> 0 <= mlmax p -> 0 < a0 -> a0 mod 64 < 32 -> a0 mod 2 ^ msc p = 0 -> range mod 2 ^ msc p = 0 -> 0 < range < 2 ^ 31 ->
  NoDup (map fst raws) -> (forall r, In r raws -> a0 <= fst r < a0 + range) ->
  Z.of_nat (length raws) <= cap -> Z.of_nat (length raws) <= 2 ^ mlmax p ->
  a0 <= addr < a0 + range -> (addr - a0) / 2 ^ msc p <> 2 ^ mlmax p - 1 ->
  (exists r, In r raws /\ (addr - a0) / 2 ^ msc p <= (fst r - a0) / 2 ^ msc p) ->
  (exists r, In r raws /\ fst r < addr) \/ (forall r, In r raws -> fst r <> addr) ->
  exists m, generate dbg p a0 range cap raws = Ok m /\ Permutation (mv_recs m) raws /\ sorted (mv_recs m) /\
   ((exists i, idx_le p a0 range m addr = Ok (Some (Z.of_nat i)) /\ below (mv_recs m) addr i) \/
    (idx_le p a0 range m addr = Ok None /\ forall r, In r raws -> addr < fst r)).
Proof.
  intros dbg p a0 range cap raws addr Ala Asc Amax A0 A64 Aal Ral Rng ND IN HC HM Ia NS (rl & Il & Ll) NF.
  assert (CL : close raws). { intros a b Ha Hb. pose proof (IN _ Ha). pose proof (IN _ Hb). clear - H H0 Rng. lia. }
  pose proof (msort_sorted raws CL ND) as HS. pose proof (msort_perm raws) as HP.
  assert (IN' : forall r, In r (msort raws) -> inr a0 range (fst r)) by (intros r Ir; apply IN; eapply Permutation_in; eauto).
  assert (G0 : gen_inv p a0 [] (mkMv [] [] []) 0 None) by (split; auto).
  destruct (gen_loop_ok dbg p a0 range cap Ala Asc Amax A0 A64 Aal Ral Rng (msort raws) [] _ 0 None G0 HS IN') as (m & last & lw & GL & G1 & G2 & G3).
  { cbn [app]. rewrite (Permutation_length HP). auto. } { cbn [app]. rewrite (Permutation_length HP). auto. }
  unfold generate. rewrite GL. cbn [bind]. eexists. split; [reflexivity|]. cbn [mv_recs]. cbn [app] in *. rewrite G1.
  split; [auto|]. split; [auto|].
  destruct lw as [q0|]. 2:{ rewrite G3 in HP. exfalso. apply Permutation_nil in HP. rewrite HP in Il. easy. }
  destruct G3 as ((r0 & I0 & E0) & LM & -> & GS).
  assert (Il' : In rl (msort raws)) by (eapply Permutation_in; [symmetry; exact HP|exact Il]).
  assert (SQ : sc p a0 addr <= sc p a0 last) by (unfold sc; eapply Z.le_trans; [exact Ll|]; apply Z.div_le_mono; [apply Z.pow_pos_nonneg; clear - Asc; lia|specialize (LM _ Il'); clear - LM; lia]).
  assert (S0 : 0 <= sc p a0 addr) by (unfold sc; apply Z.div_pos; [lia|apply Z.pow_pos_nonneg; lia]).
  match goal with |- context [idx_le p a0 range ?mm addr] => set (m2 := mm) end.
  assert (SG : sget (mv_short m2) (sc p a0 addr) = fewer p a0 (msort raws) (sc p a0 addr)).
  { rewrite <- GS by (clear - SQ S0; lia). subst m2. cbn [mv_short]. destruct (_ <? _); auto. cbn [sget].
    destruct ((sc p a0 last + 1 <=? sc p a0 addr) && _) eqn:K; auto. clear - K SQ. lia. }
  assert (NF' : forall r, hd_error (msort raws) = Some r -> fst r <> addr).
  { intros r Hr E. destruct (msort raws) as [|x t] eqn:EM; [easy|]. injection Hr as ->.
    assert (In r raws) by (eapply Permutation_in; [exact HP|left; auto]).
    destruct NF as [(z & Iz & Lz)|NF]; [|eapply NF; eauto].
    assert (Iz' : In z (r :: t)) by (eapply Permutation_in; [symmetry; exact HP|exact Iz]).
    destruct Iz' as [<-|Iz']; [lia|]. inversion HS as [|? ? S1 S2]; subst. rewrite Forall_forall in S2. specialize (S2 _ Iz'). lia. }
  pose proof (lookup_ok p a0 range Ala Asc Amax A0 Aal Ral Rng (msort raws) m2 addr HS IN') as L.
  assert (E1 : mv_recs m2 = msort raws) by (subst m2; auto). assert (E2 : mv_bits m2 = map (fun r => fst r - rdown a0 64) (msort raws)) by (subst m2; auto).
  specialize (L E1 E2 Ia NS). specialize (L (ex_intro _ rl (conj Il' Ll)) SG NF').
  destruct (nle (msort raws) addr =? 0)%nat eqn:Z0.
  - right. split; [exact L|]. intros r Ir. apply (nle_zero (msort raws)); [lia|]. eapply Permutation_in; [symmetry; exact HP|exact Ir].
  - left. exists (nle (msort raws) addr - 1)%nat. split. { rewrite L. f_equal. f_equal. lia. } apply below_nle; auto. lia.
Qed.
Print Assumptions metavec_lookup_partial.

Module MvEx.
(* the instance of the unit test, metavec.h:241-250: address 0x400000, 3MiB, scale 8, 16-bit shortcuts *)
Definition par := mkMvp 0 16 8.
Definition a0 := 4194304. Definition rg := 3145728.
Definition raws := [(a0 + 5000, 1); (a0 + 20, 2); (a0 + 1000, 3); (a0 + 1010, 4)].
Definition lk (p : mvp) (a0 rg : Z) (raws : list (Z * Z)) (addr : Z) : res (option Z) :=
  do m <- generate true p a0 rg 100 raws ; idx_le p a0 rg m addr.
End MvEx.
Import MvEx.
Example metavec_ex : lk par a0 rg raws (a0 + 1005) = Ok (Some 1) /\ lk par a0 rg raws (a0 + 1200) = Ok (Some 2) /\ lk par a0 rg raws (a0 + 10) = Ok None
  /\ lk par a0 rg raws (a0 + 5001) = Ok (Some 3).
Proof. vm_compute. auto. Qed.
Example metavec_hyp : NoDup (map fst raws) /\ (forall r, In r raws -> a0 <= fst r < a0 + rg) /\ a0 mod 64 < 32 /\ a0 mod 2 ^ 8 = 0 /\ rg mod 2 ^ 8 = 0.
Proof.
  repeat split; try (vm_compute; congruence).
  - repeat constructor; cbn; unfold a0; intuition lia.
  - cbn in H. unfold a0 in *. destruct H as [<-|[<-|[<-|[<-|[]]]]]; cbn; lia.
  - cbn in H. unfold a0, rg in *. destruct H as [<-|[<-|[<-|[<-|[]]]]]; cbn; lia.
Qed.

(* the first record's own address is not found *)
Theorem metavec_first_refuted : exists raws addr, In (addr, 2) raws /\ lk par a0 rg raws addr = Ok None.
Proof. exists raws, (a0 + 20). split; [cbn; auto|vm_compute; auto]. Qed.
(* an address in a shortcut range after the last record's makes the lookup read outside the records *)
Theorem metavec_after_last_refuted : exists raws addr, a0 <= addr < a0 + rg /\ lk par a0 rg raws addr = UB.
Proof. exists raws, (a0 + 6000). vm_compute. repeat split; congruence. Qed.
(* with 2-byte alignment, a lookup counts the wrong bits: the third record's address gives the second *)
Theorem metavec_align_refuted : exists raws addr, nth_error raws 2 = Some (addr, 3) /\ sorted raws /\ lk (mkMvp 1 16 8) a0 rg raws addr = Ok (Some 1).
Proof.
  exists [(a0 + 20, 1); (a0 + 40, 2); (a0 + 60, 3)], (a0 + 60). split; [reflexivity|]. split; [|vm_compute; auto].
  unfold sorted. repeat constructor; cbn; lia.
Qed.
(* a first address in the upper half of a word: the bits counted are not the bits set *)
Theorem metavec_base_refuted : exists a1 raws addr, sorted raws /\ nth_error raws 1 = Some (addr, 2) /\ lk par a1 rg raws addr = Ok (Some 0).
Proof.
  exists (a0 + 32), [(a0 + 40, 1); (a0 + 60, 2)], (a0 + 60). split; [|vm_compute; auto]. unfold sorted. repeat constructor; cbn; lia.
Qed.
(* a first address that is not a multiple of the shortcut scale: generation writes past the shortcut vector *)
Theorem metavec_shortcut_refuted : exists a1 range raws, (forall r, In r raws -> a1 <= fst r < a1 + range) /\ generate true par a1 range 100 raws = UB.
Proof. exists (a0 + 192), 256, [(a0 + 300, 1)]. split; [|vm_compute; auto]. intros r [<-|[]]. cbn. unfold a0. lia. Qed.
(* addresses further apart than an int: the records are not put in order *)
Theorem metavec_far_refuted : exists raws, NoDup (map fst raws) /\ ~ sorted (msort raws).
Proof.
  exists [(1, 0); (2 ^ 31 + 5, 0)]. split. { repeat constructor; cbn; intuition lia. }
  intros H. vm_compute in H. inversion H as [|? ? _ F]; subst. inversion F; subst. discriminate.
Qed.
(* shortcut range 65535 is never searched *)
Theorem metavec_range_refuted : exists raws addr range, sorted raws /\ nth_error raws 1 = Some (addr, 2) /\ a0 <= addr < a0 + range /\ lk par a0 range raws addr = Ok None.
Proof.
  exists [(a0 + 1, 1); (a0 + 65535 * 256 + 1, 2)], (a0 + 65535 * 256 + 1), (2 ^ 25). split; [unfold sorted; repeat constructor; cbn; lia|].
  vm_compute. repeat split; congruence.
Qed.
