(* C13: the program-break records. *)
From Verif Require Import Base Big_model Big_spec Big_inv Big_lookup Big_create Big_hist Big_props Map_model Map_spec Big_field Map_seq Map_aug Map_state Map_unmap Map_loop Map_map Map_brk Map_hist Map_props Brk_model Brk_spec.

Section P.
Variables (nb : nat) (biggest : Z) (dbg : bool) (al : nat -> Z) (cur_ max_ : Z) (obj_of : Z -> Z).
Notation mreach := (mreach nb biggest dbg al cur_ max_ obj_of).
Notation R := (reach nb biggest dbg al cur_ max_).

Lemma mreach_R T M : mreach T M -> R (fo T).
Proof. intro H. exact (mi_R _ _ _ _ _ _ _ (proj1 (mreach_inv _ _ _ _ _ _ _ _ _ H))). Qed.

(* the facts about a heap that hold in every history *)
Lemma heap_facts T M n m v w : mreach T M -> heap T n m v w ->
  n <> 0%nat /\ n <> m /\ a_parent v = 0%nat /\ 0 < a_begin v /\ a_begin v <= a_begin w /\ a_begin w < a_end w /\ a_end w <= a_end v /\
  aligned (a_begin v) /\ aligned (a_end v).
Proof.
  intros HM [H1 H2 H3 H4 H5]. destruct (mreach_inv _ _ _ _ _ _ _ _ _ HM) as [MI _]. assert (HR := mi_R _ _ _ _ _ _ _ MI).
  destruct (mi_seq _ _ _ _ _ _ _ MI n v H1 H2) as (P & _).
  assert (N0 : n <> 0%nat) by (apply view_inv in H1; apply (proj1 (proj1 H1))).
  assert (NM : n <> m) by (intros ->; assert (v = w) by congruence; subst; unfold BRK, MMAP in *; congruence).
  destruct (kid_in nb biggest dbg al cur_ max_ T n v m w MI H1 N0 H3 H5) as [K1 K2].
  assert (R1 := vf_range _ _ _ _ _ _ (fo T) HR n v H1). assert (R2 := vf_range _ _ _ _ _ _ (fo T) HR m w H3).
  destruct (vf_align _ _ _ _ _ _ (fo T) HR n v H1 P) as [A1 A2]. change (aligned (a_begin v)) in A1. change (aligned (a_end v)) in A2.
  repeat (split; [first [assumption|lia]|]). assumption.
Qed.

(* the mapping's end moves *)
Lemma map_moves T M n m v w x : mreach T M -> heap T n m v w ->
  a_begin v < RUP x -> (forall c, live (fo T) c -> ~ meets (fo T) c (a_end v) (RUP x)) -> RUP x - a_begin v <= biggest ->
  (a_end v < RUP x -> (length (used (seqs T (a_priv v))) < MAXLEN)%nat \/ forall t, recorded T (a_end v - 1) t -> at_file t = None) ->
  (forall c y, view (fo T) c = Some y -> a_parent y = n -> a_end y <= RUP x) ->
  exists T', mmap_notify_brk biggest dbg T n x = Ok T' /\ mreach T' (brk_moved M (a_end v) (RUP x)) /\
    heap T' n m (with_end v (RUP x)) w /\ forall c, view (fo T') c = if Nat.eqb c n then Some (with_end v (RUP x)) else view (fo T) c.
Proof.
  intros HM HP C1 C2 C3 C4 C5. destruct (heap_facts T M n m v w HM HP) as (N0 & NM & _). destruct HP as [H1 H2 H3 H4 H5].
  destruct (mreach_inv _ _ _ _ _ _ _ _ _ HM) as [MI MR]. destruct (view_inv _ _ _ H1) as [Ln Ev].
  assert (MB : may_brk biggest T n x).
  { rewrite Ev in *. constructor; [split; [exact Ln|exact H2]|exact C1|exact C2|exact C3|exact C4|].
    intros c Lc Pc. exact (C5 c _ (live_as _ _ Lc) Pc). }
  destruct (brk_ok nb biggest dbg al cur_ max_ T M n x MI MR MB) as (T' & E & _ & _ & _ & _ & VW).
  exists T'. split; [exact E|]. assert (HM' := m_brk _ _ _ _ _ _ _ T M n x T' HM MB E).
  assert (VW' : forall c, view (fo T') c = if Nat.eqb c n then Some (with_end v (RUP x)) else view (fo T) c).
  { intro c. rewrite VW, Ev. reflexivity. }
  split; [rewrite Ev; exact HM'|]. split; [|exact VW']. constructor; try assumption.
  - rewrite VW', Nat.eqb_refl. reflexivity.
  - rewrite VW'. destruct (Nat.eqb_spec m n); [congruence|exact H3].
Qed.

(* resizing the segment leaves the mappings alone *)
Lemma resize_keeps s s' m lo e : resized s s' m lo e -> b_alloc (bigs s m) <> MMAP -> live s m -> keeps s s'.
Proof.
  intros (VW & _) A L c x Ax. rewrite VW. destruct (Nat.eqb_spec c m) as [->|]; [|reflexivity].
  rewrite (live_as _ _ L). split; intro Z0; injection Z0 as <-; cbn in Ax; contradiction.
Qed.

Lemma seg_shrinks T M n m v w k : mreach T M -> heap T n m v w -> a_begin w < k <= a_end w ->
  (forall c x, view (fo T) c = Some x -> a_parent x = m -> a_end x <= k) ->
  (a_begin w <= RDOWN k \/ RDOWN k = RDOWN (a_end w)) ->
  exists s', truncate_end biggest dbg (fo T) m k = Ok s' /\ mreach (set_fo T s') M /\ heap (set_fo T s') n m v (with_end w k) /\
    forall c, view s' c = if Nat.eqb c m then Some (with_end w k) else view (fo T) c.
Proof.
  intros HM HP C1 C2 C3. destruct (heap_facts T M n m v w HM HP) as (N0 & NM & Pv & B0 & B1 & B2 & B3 & _). destruct HP as [H1 H2 H3 H4 H5].
  assert (HR := mreach_R T M HM). destruct (view_inv _ _ _ H3) as [Lm Em]. destruct (view_inv _ _ _ H1) as [Ln En].
  destruct (reach_good _ _ _ _ _ _ _ HR) as [(K & rk & HI) HW].
  assert (SE : shrink_end (fo T) m k).
  { assert (Fb : b_begin (bigs (fo T) m) = a_begin w) by (rewrite Em; reflexivity). assert (Fe : b_end (bigs (fo T) m) = a_end w) by (rewrite Em; reflexivity).
    assert (Fp : b_parent (bigs (fo T) m) = n) by (rewrite Em in H5; exact H5).
    assert (Nb : b_begin (bigs (fo T) n) = a_begin v) by (rewrite En; reflexivity). assert (Ne : b_end (bigs (fo T) n) = a_end v) by (rewrite En; reflexivity).
    unfold shrink_end. rewrite Fb, Fe. split; [exact Lm|]. split; [lia|]. split; [|exact C3].
    constructor; rewrite ?Fb, ?Fe, ?Fp, ?Nb, ?Ne; try lia.
    - intros c Lc Pc. split; [|exact (C2 c _ (live_as _ _ Lc) Pc)]. assert (X := I_in _ _ _ _ HI c Lc). rewrite Pc in X. specialize (X (proj1 Lm)). lia.
    - intros c Lc Nc Pc. assert (X := I_disj _ _ _ _ HI n c m). unfold disj in X. rewrite Fb, Fe in X.
      destruct X as [X|X]; [apply (I_kid _ _ _ _ HI); tauto|apply (I_kid _ _ _ _ HI); tauto|exact Nc|auto|right; lia].  }
  destruct (big_truncate_end_exact nb biggest dbg al cur_ max_ (fo T) m k HR SE) as (s' & E & _ & RZ). exists s'. split; [exact E|].
  assert (VW : forall c, view s' c = if Nat.eqb c m then Some (with_end w k) else view (fo T) c).
  { intro c. rewrite (proj1 RZ), Em. reflexivity. }
  split; [|split; [|exact VW]].
  - apply (m_other _ _ _ _ _ _ _ T M (TruncEnd m k) s' HM SE E). apply (resize_keeps _ _ _ _ _ RZ); [|exact Lm].
    rewrite Em in H4. cbn in H4. rewrite H4. discriminate.
  - constructor; cbn [fo set_fo]; try assumption.
    + rewrite VW. destruct (Nat.eqb_spec n m); [congruence|exact H1].
    + rewrite VW, Nat.eqb_refl. reflexivity.
Qed.

Lemma seg_grows T M n m v w k : mreach T M -> heap T n m v w -> a_end w <= k <= a_end v -> a_end v - a_begin v <= biggest ->
  (forall c x, view (fo T) c = Some x -> a_parent x = n -> c <> m -> a_end x <= a_begin w) ->
  (a_begin w <= RDOWN (a_end w) \/ RDOWN k = RDOWN (a_end w)) ->
  exists s', extend biggest dbg (fo T) m k = Ok s' /\ mreach (set_fo T s') M /\ heap (set_fo T s') n m v (with_end w k) /\
    forall c, view s' c = if Nat.eqb c m then Some (with_end w k) else view (fo T) c.
Proof.
  intros HM HP C1 CB C2 C3. destruct (heap_facts T M n m v w HM HP) as (N0 & NM & Pv & B0 & B1 & B2 & B3 & _). destruct HP as [H1 H2 H3 H4 H5].
  assert (HR := mreach_R T M HM). destruct (view_inv _ _ _ H3) as [Lm Em]. destruct (view_inv _ _ _ H1) as [Ln En].
  destruct (reach_good _ _ _ _ _ _ _ HR) as [(K & rk & HI) HW].
  assert (SE : grow_end biggest (fo T) m k).
  { assert (Fb : b_begin (bigs (fo T) m) = a_begin w) by (rewrite Em; reflexivity). assert (Fe : b_end (bigs (fo T) m) = a_end w) by (rewrite Em; reflexivity).
    assert (Fp : b_parent (bigs (fo T) m) = n) by (rewrite Em in H5; exact H5).
    assert (Nb : b_begin (bigs (fo T) n) = a_begin v) by (rewrite En; reflexivity). assert (Ne : b_end (bigs (fo T) n) = a_end v) by (rewrite En; reflexivity).
    unfold grow_end. rewrite Fb, Fe. split; [exact Lm|]. split; [lia|]. split; [|split; [lia|exact C3]].
    constructor; rewrite ?Fb, ?Fe, ?Fp, ?Nb, ?Ne; try lia.
    - intros c Lc Pc. assert (X := I_in _ _ _ _ HI c Lc). rewrite Pc in X. specialize (X (proj1 Lm)). lia.
    - intros c Lc Nc Pc. left. exact (C2 c _ (live_as _ _ Lc) Pc Nc). }
  destruct (big_extend_exact nb biggest dbg al cur_ max_ (fo T) m k HR SE) as (s' & E & _ & RZ). exists s'. split; [exact E|].
  assert (VW : forall c, view s' c = if Nat.eqb c m then Some (with_end w k) else view (fo T) c).
  { intro c. rewrite (proj1 RZ), Em. reflexivity. }
  split; [|split; [|exact VW]].
  - apply (m_other _ _ _ _ _ _ _ T M (Extend m k) s' HM SE E). apply (resize_keeps _ _ _ _ _ RZ); [|exact Lm].
    rewrite Em in H4. cbn in H4. rewrite H4. discriminate.
  - constructor; cbn [fo set_fo]; try assumption.
    + rewrite VW. destruct (Nat.eqb_spec n m); [congruence|exact H1].
    + rewrite VW, Nat.eqb_refl. reflexivity.
Qed.

Lemma map_stays T M n m v w k : mreach T M -> heap T n m v w -> a_end v = RUP k -> mmap_notify_brk biggest dbg T n k = Ok T.
Proof.
  intros HM HP E. destruct (heap_facts T M n m v w HM HP) as (N0 & _). destruct HP as [H1 _ _ _ _]. destruct (view_inv _ _ _ H1) as [_ Ev].
  unfold mmap_notify_brk. destruct (Nat.eqb_spec n 0); [contradiction|]. cbv zeta.
  replace (b_end (bigs (fo T) n)) with (RUP k) by (rewrite <- E, Ev; reflexivity). rewrite !Z.ltb_irrefl. reflexivity.
Qed.

(* ---------------------------------------------------------------- C13 *)
(* update_brk alone *)
Lemma update_ok B M v w k : mreach (bm B) M -> heap (bm B) (b_map B) (b_brk B) v w ->
  may_move biggest (bm B) (b_map B) (b_brk B) v w k k -> (a_end w = k -> a_end v = RUP k) ->
  exists T', update_brk biggest dbg B k = Ok (with_m B T') /\ mreach T' (brk_moved M (a_end v) (RUP k)) /\
    heap T' (b_map B) (b_brk B) (with_end v (RUP k)) (with_end w k) /\ heap_moved (bm B) T' (b_map B) (b_brk B) v w (RUP k) k.
Proof.
  intros HM HP MV EQ. destruct MV as [C1 C2 C3 C4 C5 C6 C7 _]. destruct B as [T cu n m ini la]. cbn [bm b_map b_brk b_cur] in *.
  destruct (heap_facts T M n m v w HM HP) as (N0 & NM & Pv & B0 & B1 & B2 & B3 & A1 & A2).
  assert (M0 : m <> 0%nat) by (destruct HP as [_ _ X _ _]; apply view_inv in X; apply X).
  assert (RK : k <= RUP k) by (clear A1 A2; unfold RUP, rup, PAGE; lia).
  unfold update_brk. cbn [bm b_map b_brk]. destruct (Nat.eqb_spec n 0); [contradiction|]. destruct (Nat.eqb_spec m 0); [contradiction|].
  cbn [negb]. rewrite (asrt_true dbg true) by reflexivity. cbn [bind].
  assert (Em : b_end (bigs (fo T) m) = a_end w) by (destruct HP as [_ _ X _ _]; apply view_inv in X; destruct X as [_ ->]; reflexivity).
  rewrite Em. destruct (Z.ltb_spec k (a_end w)) as [L1|L1]; [|destruct (Z.ltb_spec (a_end w) k) as [L2|L2]].
  - (* down: the segment first *)
    destruct (seg_shrinks T M n m v w k HM HP ltac:(lia) C2) as (s1 & E1 & HM1 & HP1 & V1).
    { rewrite Z.min_l in C7 by lia. exact C7. }
    rewrite E1. cbn [bind]. assert (Es : b_end (bigs s1 m) = k) by (destruct HP1 as [_ _ X _ _]; apply view_inv in X; cbn in X; destruct X as [_ X]; unfold with_end, attrs_of in X; congruence).
    rewrite Es, asrt_true by (apply Z.eqb_refl). cbn [bind].
    assert (LV : forall c, live s1 c -> live (fo T) c /\ b_begin (bigs s1 c) = b_begin (bigs (fo T) c) /\ b_end (bigs s1 c) <= b_end (bigs (fo T) c)).
    { intros c Lc. assert (Vc := live_as _ _ Lc). rewrite V1 in Vc. destruct (Nat.eqb_spec c m) as [->|].
      - destruct HP as [_ _ X _ _]. destruct (view_inv _ _ _ X) as [Lm Ew]. split; [exact Lm|]. unfold with_end, attrs_of in *. injection Vc as V2 V3. rewrite Ew in V2. cbn in V2. split; [congruence|]. lia.
      - apply view_inv in Vc. destruct Vc as [Lx Ex]. split; [exact Lx|]. unfold attrs_of in Ex. injection Ex as X1 X2. lia. }
    destruct (map_moves (set_fo T s1) M n m v (with_end w k) k HM1 HP1) as (T' & E2 & HM2 & HP2 & V2); try assumption; try lia.
    + intros c Lc (a & X1 & X2). apply (C4 c (proj1 (LV c Lc))). exists a. split; [exact X1|]. cbn [fo set_fo] in X2. unfold covers in *. specialize (LV c Lc). lia.
    + intro X. destruct (C6 X) as [Y|Y]; [left; exact Y|right]. intros t Rt. apply (Y t).
      apply (proj2 (mreach_inv _ _ _ _ _ _ _ _ _ HM)), (proj2 (mreach_inv _ _ _ _ _ _ _ _ _ HM1)), Rt.
    + intros c y Hc Pc. cbn [fo set_fo] in Hc. rewrite V1 in Hc. destruct (Nat.eqb_spec c m) as [->|Nc]; [injection Hc as <-; cbn; lia|]. specialize (C3 c y Hc Pc Nc). lia.
    + exists T'. rewrite E2. cbn [bind]. split; [reflexivity|]. split; [exact HM2|]. split; [exact HP2|].
      intro c. rewrite V2. destruct (Nat.eqb_spec c n); [reflexivity|]. cbn [fo set_fo]. apply V1.
  - (* up: the mapping first *)
    destruct (map_moves T M n m v w k HM HP) as (T' & E2 & HM2 & HP2 & V2); try assumption; try lia.
    + intros c y Hc Pc. destruct (Nat.eqb_spec c m) as [->|Nc]; [destruct HP as [_ _ X _ _]; assert (y = w) by congruence; subst; lia|]. specialize (C3 c y Hc Pc Nc). lia.
    + rewrite E2. cbn [bind].
      destruct (seg_grows T' _ n m (with_end v (RUP k)) w k HM2 HP2) as (s1 & E1 & HM1 & HP1 & V1); cbn [with_end a_end a_begin]; try lia.
      * intros c x Hc Pc Nc. rewrite V2 in Hc. destruct (Nat.eqb_spec c n) as [->|]; [injection Hc as <-; cbn in Pc; congruence|]. exact (C3 c x Hc Pc Nc).
      * rewrite Z.min_r in C7 by lia. exact C7.
      * rewrite E1. cbn [bind]. exists (set_fo T' s1). split; [reflexivity|]. split; [exact HM1|]. split; [exact HP1|].
        intro c. cbn [fo set_fo]. rewrite V1, V2. destruct (Nat.eqb_spec c m) as [->|]; [destruct (Nat.eqb_spec m n); [congruence|reflexivity]|]. reflexivity.
  - assert (E : a_end w = k) by lia. specialize (EQ E). exists T. split; [destruct T; reflexivity|].
    assert (W1 : with_end v (RUP k) = v) by (rewrite <- EQ; destruct v; reflexivity). assert (W2 : with_end w k = w) by (rewrite <- E; destruct w; reflexivity).
    rewrite W1, W2. split; [|split; [exact HP|]].
    + assert (X := m_brk nb biggest dbg al cur_ max_ obj_of T M n k T HM).
      destruct HP as [H1 H2 H3 H4 H5]. destruct (view_inv _ _ _ H1) as [Ln Ev].
      assert (Fb : b_begin (bigs (fo T) n) = a_begin v) by (rewrite Ev; reflexivity). assert (Fe : b_end (bigs (fo T) n) = a_end v) by (rewrite Ev; reflexivity).
      rewrite Fe in X. apply X.
      * constructor; rewrite ?Fb, ?Fe; [split; [exact Ln|rewrite Ev in H2; exact H2]|lia|exact C4|exact C5|rewrite Ev in C6; rewrite Ev; exact C6|].
        intros c Lc Pc. destruct (Nat.eq_dec c m) as [->|Nc]; [lia|]. assert (Y := C3 c _ (live_as _ _ Lc) Pc Nc). cbn in *. lia.
      * unfold mmap_notify_brk. destruct (Nat.eqb_spec n 0); [contradiction|]. cbv zeta. rewrite Fe, EQ, !Z.ltb_irrefl. reflexivity.
    + intro c. destruct HP as [H1 _ H3 _ _]. rewrite W1, W2. destruct (Nat.eqb_spec c n) as [->|]; [exact H1|]. destruct (Nat.eqb_spec c m) as [->|]; [exact H3|reflexivity].
Qed.

Lemma moved_none M e a : brk_moved M e e a = M a.
Proof. unfold brk_moved. rewrite Z.ltb_irrefl. unfold unmap. destruct (Z.leb_spec e a), (Z.ltb_spec a e); cbn; try reflexivity. lia. Qed.

(* A notified move of the break within the caller's duties succeeds and leaves the segment
   ending exactly at the break and the mapping at the break rounded up to a page; the mapping
   records then describe the address space with the break moved; no other record changes. *)
Theorem brk_move_exact_partial : forall B M v w k caller, mreach (bm B) M -> b_init B = true ->
  heap (bm B) (b_map B) (b_brk B) v w -> may_move biggest (bm B) (b_map B) (b_brk B) v w (b_cur B) k ->
  exists T' M', notify_brk biggest dbg B k caller = Ok (mkB T' (b_cur B) (b_map B) (b_brk B) true caller) /\
    mreach T' M' /\ (forall a, M' a = brk_moved M (a_end v) (RUP k) a) /\
    heap T' (b_map B) (b_brk B) (with_end v (RUP k)) (with_end w k) /\
    heap_moved (bm B) T' (b_map B) (b_brk B) v w (RUP k) k.
Proof.
  intros B M v w k caller HM IN HP MV. destruct B as [T cu n m ini la]. cbn [bm b_map b_brk b_cur b_init] in *. subst ini.
  destruct (heap_facts T M n m v w HM HP) as (N0 & NM & Pv & B0 & B1 & B2 & B3 & A1 & A2).
  assert (RK : k <= RUP k) by (clear A1 A2; unfold RUP, rup, PAGE; lia).
  assert (MV' := MV). destruct MV' as [C1 C2 C3 C4 C5 C6 C7 C8].
  assert (KN : (k < a_end w -> a_end w <= RUP k) -> forall c y, view (fo T) c = Some y -> a_parent y = n -> a_end y <= RUP k).
  { intros O c y Hc Pc. destruct (Nat.eq_dec c m) as [->|Nc]; [|specialize (C3 c y Hc Pc Nc); lia].
    destruct HP as [_ _ X _ _]. assert (y = w) by congruence. subst. lia. }
  unfold notify_brk. cbv zeta. cbn [b_init negb b_cur bm b_map b_brk b_last]. destruct (Z.ltb_spec cu k) as [L|L].
  - destruct (map_moves T M n m v w k HM HP) as (T1 & E1 & HM1 & HP1 & V1); try assumption; try lia; [apply KN; auto|].
    rewrite E1. cbn [bind]. unfold with_m. cbn [bm b_cur b_map b_brk b_init b_last].
    destruct (update_ok (mkB T1 cu n m true caller) _ (with_end v (RUP k)) w k HM1 HP1) as (T' & E2 & HM2 & HP2 & V2); cbn [bm b_map b_brk].
    { constructor; cbn [with_end a_end a_begin a_priv]; try assumption; try lia.
      - intros c x Hc Pc. rewrite V1 in Hc. destruct (Nat.eqb_spec c n) as [->|]; [injection Hc as <-; cbn in Pc; destruct HP as [_ _ X _ _]; apply view_inv in X; destruct X as [[X _] _]; congruence|]. exact (C2 c x Hc Pc).
      - intros c x Hc Pc Nc. rewrite V1 in Hc. destruct (Nat.eqb_spec c n) as [->|]; [injection Hc as <-; cbn in Pc; congruence|]. exact (C3 c x Hc Pc Nc).
      - intros c _ (a & X & _). lia. }
    { reflexivity. }
    cbn [bm b_map b_brk] in E2, HM2, HP2, V2. rewrite E2. unfold with_m. cbn [b_cur b_map b_brk b_init b_last].
    eexists T', _. split; [reflexivity|]. split; [exact HM2|]. cbn [with_end a_end]. split; [intro a; apply moved_none|]. split; [exact HP2|].
    intro c. rewrite V2, V1. destruct (Nat.eqb_spec c n); [reflexivity|]. reflexivity.
  - destruct (Z.eq_dec (a_end w) k) as [E|NE].
    + assert (E0 : update_brk biggest dbg (mkB T cu n m true caller) k = Ok (mkB T cu n m true caller)).
      { unfold update_brk. cbn [bm b_map b_brk]. assert (M0 : m <> 0%nat) by (destruct HP as [_ _ X _ _]; apply view_inv in X; apply X).
        destruct (Nat.eqb_spec n 0); [contradiction|]. destruct (Nat.eqb_spec m 0); [contradiction|]. rewrite asrt_true by reflexivity. cbn [bind].
        assert (Em : b_end (bigs (fo T) m) = a_end w) by (destruct HP as [_ _ X _ _]; apply view_inv in X; destruct X as [_ ->]; reflexivity).
        rewrite Em, E, Z.ltb_irrefl. reflexivity. }
      rewrite E0. cbn [bind bm b_map].
      destruct (map_moves T M n m v w k HM HP) as (T1 & E1 & HM1 & HP1 & V1); try assumption; try lia; [apply KN; lia|].
      rewrite E1. cbn [bind]. exists T1, (brk_moved M (a_end v) (RUP k)). split; [reflexivity|]. split; [exact HM1|]. split; [reflexivity|].
      assert (W2 : with_end w k = w) by (rewrite <- E; destruct w; reflexivity). rewrite W2. split; [exact HP1|].
      intro c. rewrite V1, W2. destruct (Nat.eqb_spec c n) as [->|]; [reflexivity|]. destruct (Nat.eqb_spec c m) as [->|]; [|reflexivity]. destruct HP as [_ _ X _ _]. exact X.
    + destruct (update_ok (mkB T cu n m true caller) M v w k HM HP) as (T' & E2 & HM2 & HP2 & V2); cbn [bm b_map b_brk] in *.
      { constructor; try assumption. lia. }
      { intro X. congruence. }
      rewrite E2. cbn [bind]. unfold with_m. cbn [bm b_cur b_map b_brk b_init b_last].
      rewrite (map_stays T' _ n m _ _ k HM2 HP2) by reflexivity. cbn [bind].
      exists T', (brk_moved M (a_end v) (RUP k)). split; [reflexivity|]. split; [exact HM2|]. split; [reflexivity|]. split; [exact HP2|exact V2].
Qed.

(* An address the index does not know: the records are brought up to date with the kernel's
   break, and the answer says whether that can have helped. *)
Theorem brk_touch_exact_partial : forall B M v w k a, mreach (bm B) M ->
  heap (bm B) (b_map B) (b_brk B) v w -> may_move biggest (bm B) (b_map B) (b_brk B) v w k k -> (a_end w = k -> a_end v = RUP k) ->
  exists T', notify_unindexed biggest dbg B k a = Ok (with_m B T', (b_cur B <=? a) && (a <? k)) /\
    mreach T' (brk_moved M (a_end v) (RUP k)) /\
    heap T' (b_map B) (b_brk B) (with_end v (RUP k)) (with_end w k) /\
    heap_moved (bm B) T' (b_map B) (b_brk B) v w (RUP k) k.
Proof.
  intros B M v w k a HM HP MV EQ. destruct (update_ok B M v w k HM HP MV EQ) as (T' & E & X). exists T'. split; [|exact X].
  unfold notify_unindexed. destruct (Nat.eqb_spec (b_brk B) 0) as [Z0|_].
  - exfalso. destruct HP as [_ _ Y _ _]. apply view_inv in Y. destruct Y as [[Y _] _]. contradiction.
  - rewrite E. reflexivity.
Qed.

(* ---------------------------------------------------------------- starting *)
Lemma next_after s n v : R s -> view s n = Some v -> a_parent v = 0%nat ->
  b_next (bigs s n) = 0%nat \/ a_end v <= b_begin (bigs s (b_next (bigs s n))).
Proof.
  intros HR Hn P. destruct (reach_good _ _ _ _ _ _ _ HR) as [(K & rk & HI) _]. destruct (view_inv _ _ _ Hn) as [Ln Ev].
  assert (In0 : In n (K 0%nat)) by (apply (I_kid _ _ _ _ HI); rewrite Ev in P; auto).
  assert (D := I_dll _ _ _ _ HI 0%nat). assert (Bf := I_before _ _ _ _ HI). revert D Bf In0. generalize (K 0%nat), 0%nat at 1.
  intro l. induction l as [|x l IH]; intros pv D Bf I; [contradiction|]. cbn [dll before] in D, Bf. destruct D as (_ & D1 & D2), Bf as [Bf1 Bf2].
  destruct I as [->|I]; [|exact (IH x D2 Bf2 I)]. rewrite D1. destruct l as [|y l]; [left; reflexivity|right]. cbn [hd]. rewrite Ev. apply Bf1. left. reflexivity.
Qed.

Definition start_map (M : space) (v : attrs) (k : Z) : space := if k =? a_end v then brk_moved M k (RUP (k + 1)) else M.

(* Starting up records a segment from the break to the end of the mapping holding it. *)
Theorem brk_start_partial : forall T M cur last n v k, mreach T M -> may_start nb biggest T n v k ->
  exists T' m, brk_init nb biggest dbg (mkB T cur 0 0 false last) k = Ok (mkB T' cur n m true last, if k =? a_end v then k + 1 else k) /\
    mreach T' (start_map M v k) /\
    let e := if k =? a_end v then RUP (k + 1) else a_end v in
    heap T' n m (with_end v e) (mkAttrs k e n BRK 0 0 0) /\ view (fo T) m = None /\
    forall c, c <> n -> c <> m -> view (fo T') c = view (fo T) c.
Proof.
  intros T M cu la n v k HM [H1 H2 HF HIN HK]. destruct (mreach_inv _ _ _ _ _ _ _ _ _ HM) as [MI MR]. assert (HR := mi_R _ _ _ _ _ _ _ MI).
  destruct (mi_seq _ _ _ _ _ _ _ MI n v H1 H2) as (P & _). destruct (view_inv _ _ _ H1) as [Ln Ev].
  assert (RV := vf_range _ _ _ _ _ _ (fo T) HR n v H1).
  destruct (vf_align _ _ _ _ _ _ (fo T) HR n v H1 P) as [A1 A2]. change (aligned (a_begin v)) in A1. change (aligned (a_end v)) in A2.
  assert (N0 := proj1 Ln).
  assert (FE : find_existing nb biggest dbg T k = Ok n).
  { unfold find_existing. destruct (big_top_level_lookup nb biggest dbg al cur_ max_ (fo T) k HR) as (r & E & C). rewrite E. cbn [bind].
    destruct HIN as [HIN|(-> & CL & _ & BG & _)].
    - destruct C as [(-> & C)|(Lr & Pr & Cr)].
      + exfalso. apply (C n Ln). unfold covers. rewrite Ev in HIN. cbn in HIN. exact HIN.
      + destruct (Nat.eq_dec r n) as [->|Nr]; [destruct (Nat.eqb_spec n 0); [contradiction|reflexivity]|]. exfalso.
        destruct (vf_top _ _ _ _ _ _ (fo T) HR r n _ v (live_as _ _ Lr) H1 Pr P Nr) as [X|X]; unfold covers in Cr; cbn in X; lia.
    - destruct C as [(-> & C)|(Lr & Pr & Cr)].
      + cbn [Nat.eqb negb]. destruct (big_mapping_below nb biggest dbg al cur_ max_ (fo T) (a_end v) HR) as (r & E2 & C2). rewrite E2. cbn [bind].
        assert (TN : toplevel (fo T) n) by (split; [exact Ln|rewrite Ev in P; exact P]).
        assert (En : b_end (bigs (fo T) n) = a_end v) by (rewrite Ev; reflexivity).
        destruct C2 as [(-> & C2)|(Tr & C2 & C3)]; [specialize (C2 n TN); lia|].
        assert (r = n).
        { destruct (C3 n TN ltac:(lia)) as [X|X]; [auto|]. exfalso. assert (Y := vf_range _ _ _ _ _ _ (fo T) HR r _ (live_as _ _ (proj1 Tr))). cbn in Y. lia. }
        subst r. destruct (Nat.eqb_spec n 0); [contradiction|]. rewrite En, Z.sub_diag.
        assert (X2 : (0 <=? 0) && (0 <? biggest / 2) = true) by (clear A1 A2; lia). rewrite X2.
        destruct (next_after (fo T) n v HR H1 P) as [X|X]; [rewrite X; reflexivity|]. rewrite (proj2 (Z.leb_le _ _) X), Bool.orb_true_r. reflexivity.
      + exfalso. apply (CL r Lr). exists (a_end v). split; [|exact Cr]. clear - A1. assert (a_end v + 1 <= RUP (a_end v + 1)) by (unfold RUP, rup, PAGE; lia). lia. }
  unfold brk_init. cbn [b_init bm b_map]. change (mmap_notify_brk biggest dbg T 0 k) with (Ok T). cbn [bind].
  unfold with_m, create_brk. cbn [bm b_cur b_map b_brk b_init b_last]. rewrite FE. cbn [bind]. rewrite asrt_true by reflexivity. cbn [bind].
  rewrite asrt_true by (destruct (Nat.eqb_spec n 0); [contradiction|reflexivity]). cbn [bind].
  assert (En : b_end (bigs (fo T) n) = a_end v) by (rewrite Ev; reflexivity). rewrite En.
  assert (F0 : (a_end v - k <? 0) = false) by (clear A1 A2; lia). rewrite F0. cbn [bind]. rewrite En.
  (* the mapping after sbrk(1), if that is called *)
  assert (MID : exists T2, (if a_end v - k =? 0 then do T3 <- mmap_notify_brk biggest dbg T n (k + 1) ; Ok (T3, k + 1) else Ok (T, k)) = Ok (T2, if k =? a_end v then k + 1 else k) /\
     mreach T2 (start_map M v k) /\ let e := if k =? a_end v then RUP (k + 1) else a_end v in
     k < e /\ e - a_begin v <= biggest /\ forall c, view (fo T2) c = if Nat.eqb c n then Some (with_end v e) else view (fo T) c).
  { unfold start_map. destruct (Z.eqb_spec k (a_end v)) as [->|NE].
    - rewrite Z.sub_diag. cbn [Z.eqb]. destruct HIN as [HIN|(_ & CL & SZ & BG & RM)]; [lia|].
      assert (RK : a_end v + 1 <= RUP (a_end v + 1)) by (clear; unfold RUP, rup, PAGE; lia).
      assert (MB : may_brk biggest T n (a_end v + 1)).
      { assert (Eb : b_begin (bigs (fo T) n) = a_begin v) by (rewrite Ev; reflexivity).
        constructor; rewrite ?En, ?Eb; [split; [exact Ln|rewrite Ev in H2; exact H2]|lia|exact CL|exact SZ|intros _; rewrite Ev in RM |- *; exact RM|].
        intros c Lc Pc. assert (X := HK c _ (live_as _ _ Lc) Pc). cbn in X. lia. }
      destruct (brk_ok nb biggest dbg al cur_ max_ T M n _ MI MR MB) as (T2 & E & _ & _ & _ & _ & VW). rewrite E. cbn [bind]. exists T2. split; [reflexivity|].
      assert (HM2 := m_brk _ _ _ _ _ _ _ T M n _ T2 HM MB E). rewrite En in HM2. split; [exact HM2|]. cbv zeta. split; [lia|]. split; [exact SZ|].
      intro c. rewrite VW, Ev. reflexivity.
    - assert (X : (a_end v - k =? 0) = false) by (clear A1 A2; lia). rewrite X. exists T. split; [reflexivity|]. split; [exact HM|]. cbv zeta. split; [lia|].
      split; [|intro c; destruct (Nat.eqb_spec c n) as [->|]; [rewrite H1; f_equal; destruct v; reflexivity|reflexivity]].
      destruct (reach_good _ _ _ _ _ _ _ HR) as [_ HW]. specialize (HW n Ln). unfold width in HW. rewrite En in HW. rewrite Ev in |- * at 2. exact HW. }
  destruct MID as (T2 & E2 & HM2 & KE & SZ & VW). rewrite E2. cbn [bind]. set (e := if k =? a_end v then RUP (k + 1) else a_end v) in *. clearbody e.
  assert (HR2 := mreach_R _ _ HM2). assert (H1' : view (fo T2) n = Some (with_end v e)) by (rewrite VW, Nat.eqb_refl; reflexivity).
  destruct (view_inv _ _ _ H1') as [Ln2 Ev2].
  assert (En2 : b_end (bigs (fo T2) n) = e) by (unfold with_end, attrs_of in Ev2; congruence). rewrite En2.
  assert (Eb2 : b_begin (bigs (fo T2) n) = a_begin v) by (unfold with_end, attrs_of in Ev2; congruence).
  rewrite asrt_true by (clear A1 A2; lia). cbn [bind].
  assert (BK : a_begin v <= k) by (destruct HIN as [X|(X & _)]; clear A1 A2; lia).
  assert (HF2 : has_free nb (fo T2)).
  { destruct HF as (f & F1 & F2). exists f. split; [exact F1|]. assert (X : view (fo T2) f = None).
    { rewrite VW. destruct (Nat.eqb_spec f n) as [->|]; [destruct Ln as [_ Ln]; congruence|]. unfold view. rewrite F2, Bool.andb_false_r. reflexivity. }
    unfold view in X. destruct (Nat.eqb_spec f 0); [lia|]. cbn [negb andb] in X. destruct (in_use (bigs (fo T2) f)); [discriminate|reflexivity]. }
  assert (FI : fits (fo T2) n k (k + (e - k))).
  { replace (k + (e - k)) with e by lia. split; [lia|]. destruct (Nat.eqb_spec n 0); [contradiction|]. split; [split; [exact Ln2|lia]|].
    intros c Lc Pc. left. assert (Vc := live_as _ _ Lc). rewrite VW in Vc. destruct (Nat.eqb_spec c n) as [->|]; [exfalso; unfold with_end, attrs_of in Vc; injection Vc; intros; congruence|].
    exact (HK c _ Vc Pc). }
  assert (PC : parent_choice (fo T2) n n k (k + (e - k))) by (unfold parent_choice; destruct (Nat.eqb_spec n 0); [contradiction|reflexivity]).
  assert (SZ2 : e - k <= biggest) by lia.
  destruct (big_create_exact nb biggest dbg al cur_ max_ (fo T2) k (e - k) 0 n BRK n HR2 HF2 SZ2 FI PC) as (s3 & m & E3 & _ & M0 & VN & V3 & _ & _).
  replace (k + (e - k)) with e in * by lia. rewrite E3. cbn [bind].
  rewrite asrt_true by (destruct (Nat.eqb_spec m 0); [contradiction|reflexivity]). cbn [bind bm b_cur b_map b_brk b_last b_init].
  exists (set_fo T2 s3), m. split; [reflexivity|].
  assert (NM : n <> m) by (intros ->; congruence).
  split; [|split; [|split]].
  - apply (m_other _ _ _ _ _ _ _ T2 _ (New k (e - k) 0 n BRK) s3 HM2).
    + cbn [legal]. split; [exact HF2|]. split; [exact SZ2|]. exists n. replace (k + (e - k)) with e by lia. auto.
    + cbn [step]. rewrite E3. reflexivity.
    + intros c x Ax. rewrite V3. destruct (Nat.eqb_spec c m) as [->|]; [|reflexivity]. rewrite VN. split; [intro X; injection X as <-; cbn in Ax; discriminate|discriminate].
  - constructor; cbn [fo set_fo with_end a_alloc a_parent]; try reflexivity; try assumption.
    + rewrite V3. destruct (Nat.eqb_spec n m); [contradiction|exact H1'].
    + rewrite V3, Nat.eqb_refl. reflexivity.
  - rewrite VW in VN. destruct (Nat.eqb_spec m n); [discriminate|exact VN].
  - intros c C1 C2. cbn [fo set_fo]. rewrite V3. destruct (Nat.eqb_spec c m); [contradiction|]. rewrite VW. destruct (Nat.eqb_spec c n); [contradiction|reflexivity].
Qed.

(* ---------------------------------------------------------------- histories *)
(* [breach B M o]: the records are B when the address space is M; o is the last break that was
   notified.  Between break notifications anything the mapping layer allows may happen as long
   as the two records are left alone, and the C library may write its __curbrk. *)
Inductive breach : bst -> space -> option Z -> Prop :=
| bh_start T M cur last n v k B k' : mreach T M -> may_start nb biggest T n v k ->
    brk_init nb biggest dbg (mkB T cur 0 0 false last) k = Ok (B, k') -> breach B (start_map M v k) None
| bh_move B M o v w k caller B' : breach B M o -> heap (bm B) (b_map B) (b_brk B) v w ->
    may_move biggest (bm B) (b_map B) (b_brk B) v w (b_cur B) k ->
    notify_brk biggest dbg B k caller = Ok B' -> breach B' (brk_moved M (a_end v) (RUP k)) (Some k)
| bh_touch B M o v w k a B' r : breach B M o -> heap (bm B) (b_map B) (b_brk B) v w ->
    may_move biggest (bm B) (b_map B) (b_brk B) v w k k -> (a_end w = k -> a_end v = RUP k) ->
    notify_unindexed biggest dbg B k a = Ok (B', r) -> breach B' (brk_moved M (a_end v) (RUP k)) (Some k)
| bh_else B M o T' M' cur : breach B M o -> mreach T' M' ->
    view (fo T') (b_map B) = view (fo (bm B)) (b_map B) -> view (fo T') (b_brk B) = view (fo (bm B)) (b_brk B) ->
    breach (mkB T' cur (b_map B) (b_brk B) (b_init B) (b_last B)) M' o.

Lemma moved_ext M M' e r : (forall a, M a = M' a) -> forall a, brk_moved M e r a = brk_moved M' e r a.
Proof. intros E a. unfold brk_moved. rewrite !E. destruct (e <? r); unfold map_over, unmap; destruct (_ && _); auto. Qed.

Lemma breach_inv B M o : breach B M o -> b_init B = true /\ (exists M0, mreach (bm B) M0 /\ forall a, M0 a = M a) /\
  exists v w, heap (bm B) (b_map B) (b_brk B) v w /\ forall k, o = Some k -> a_end w = k /\ a_end v = RUP k.
Proof.
  induction 1 as [T M cur last n v k B k' HM MS E|B M o v w k caller B' HB (I1 & (M0 & I2 & I2') & _) HP MV E|B M o v w k a B' r HB (I1 & (M0 & I2 & I2') & _) HP MV EQ E|B M o T' M' cur HB (I1 & _ & v & w & I3 & I4) HM V1 V2].
  - destruct (brk_start_partial T M cur last n v k HM MS) as (T' & m & E' & HM' & HP & _). rewrite E' in E. injection E as <- <-. cbn [b_init bm b_map b_brk].
    split; [reflexivity|]. split; [exists (start_map M v k); auto|]. eexists _, _. split; [exact HP|discriminate].
  - destruct (brk_move_exact_partial B M0 v w k caller I2 I1 HP MV) as (T' & M' & E' & HM' & X & HP' & _). assert (B' = mkB T' (b_cur B) (b_map B) (b_brk B) true caller) by congruence. subst B'. cbn [b_init bm b_map b_brk].
    split; [reflexivity|]. split; [exists M'; split; [exact HM'|]; intro a; rewrite X; apply moved_ext, I2'|]. eexists _, _. split; [exact HP'|].
    intros k0 [= ->]. auto.
  - destruct (brk_touch_exact_partial B M0 v w k a I2 HP MV EQ) as (T' & E' & HM' & HP' & _). assert (B' = with_m B T') by congruence. subst B'. unfold with_m. cbn [b_init bm b_map b_brk].
    split; [exact I1|]. split; [eexists; split; [exact HM'|]; apply moved_ext, I2'|]. eexists _, _. split; [exact HP'|].
    intros k0 [= ->]. auto.
  - cbn [b_init bm b_map b_brk]. split; [exact I1|]. split; [exists M'; auto|]. exists v, w. split; [|exact I4].
    destruct I3 as [H1 H2 H3 H4 H5]. constructor; congruence.
Qed.

(* Once a break move has been notified, in every history: the segment is recorded inside its
   mapping, its recorded end is the last notified break, the mapping's is that rounded up to a
   page, the query about it says so, and the mapping records describe the address space.
   Full statement: this holds for any sequence of break moves from process start.  Missing:
   it is false before the first move (brk_start_refuted), and moves outside [may_move], in
   particular when the break starts in the middle of a page (brk_mid_page_refuted), or when the
   break starts away from any mapping (brk_gap_refuted). *)
Theorem brk_tracks_partial : forall B M k, breach B M (Some k) ->
  mirrors (bm B) M /\
  exists v w, view (fo (bm B)) (b_map B) = Some v /\ a_alloc v = MMAP /\ view (fo (bm B)) (b_brk B) = Some w /\ a_alloc w = BRK /\
    a_parent w = b_map B /\ a_begin v <= a_begin w /\ a_begin w < k /\ a_end w = k /\ a_end v = RUP k /\
    get_info B = (a_begin w, k - a_begin w, b_last B).
Proof.
  intros B M k H. destruct (breach_inv B M _ H) as (_ & (M0 & HM & ME) & v & w & HP & E). destruct (E k eq_refl) as [E1 E2].
  destruct (heap_facts _ _ _ _ _ _ HM HP) as (N0 & NM & Pv & B0 & B1 & B2 & B3 & _). destruct HP as [H1 H2 H3 H4 H5].
  split; [intros a t; rewrite <- ME; apply (proj2 (mreach_inv _ _ _ _ _ _ _ _ _ HM))|].
  exists v, w. split; [exact H1|]. split; [exact H2|]. split; [exact H3|]. split; [exact H4|]. split; [exact H5|]. split; [exact B1|]. split; [lia|]. split; [exact E1|]. split; [exact E2|].
  unfold get_info. destruct (view_inv _ _ _ H3) as [_ Ew]. rewrite Ew in *. cbn in E1 |- *. rewrite E1. reflexivity.
Qed.

(* The heap's addresses are found: every address in the segment resolves to the segment or to
   something inside it. *)
Theorem brk_lookup_partial : forall B M k a w, breach B M (Some k) -> view (fo (bm B)) (b_brk B) = Some w ->
  a_begin w <= a < k -> exists r, find_deepest nb (fo (bm B)) a = Ok r /\ r <> 0%nat /\ anc (fo (bm B)) (b_brk B) r.
Proof.
  intros B M k a w H Vw C. destruct (breach_inv B M _ H) as (_ & (M0 & HM & ME) & v & w' & HP & E). destruct (E k eq_refl) as [E1 E2].
  assert (HR := mreach_R _ _ HM). destruct (reach_good _ _ _ _ _ _ _ HR) as [(K & rk & HI) _].
  destruct (find_deepest_correct _ _ _ _ HI a) as (r & F & A). exists r. split; [exact F|].
  assert (w' = w) by (destruct HP as [_ _ X _ _]; congruence). subst w'. destruct (view_inv _ _ _ Vw) as [Lm Em].
  assert (CV : covers (fo (bm B)) (b_brk B) a) by (unfold covers; rewrite Em in *; cbn in *; lia).
  unfold lookup_answer in A. destruct (Nat.eqb_spec r 0) as [_|_]; [exfalso; exact (A _ Lm CV)|].
  destruct A as (L & C0 & IN). split; [exact (proj1 L)|]. apply IN; assumption.
Qed.
End P.
