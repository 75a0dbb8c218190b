(* The heap index: its invariant and how each call affects it. *)
From Verif Require Import Base Big_model Big_spec Big_inv Big_set Big_lookup Big_create Big_hist Big_props Big_field Map_state Insert_model Heap_model Heap_spec.

(* ---- arithmetic ---- *)
Lemma rdown_span x : rdown x SPAN <= x < rdown x SPAN + 1024 /\ rdown x SPAN mod 1024 = 0.
Proof. unfold rdown, SPAN. lia. Qed.
Lemma rup_span x : x <= rup x SPAN /\ rup x SPAN mod 1024 = 0.
Proof. unfold rup, SPAN. lia. Qed.
Lemma idx_exact x b : x mod 16 = 0 -> b mod 1024 = 0 -> b + 16 * ((x - b) / 16) = x.
Proof. intros. lia. Qed.
Lemma idx_eq x y b : x mod 16 = 0 -> y mod 16 = 0 -> (x - b) / 16 = (y - b) / 16 -> b mod 1024 = 0 -> x = y.
Proof. intros. lia. Qed.
Lemma w64_id x : 0 <= x < 2 ^ 64 -> w64 x = x.
Proof. intro. unfold w64. apply Z.mod_small. lia. Qed.

Section P.
Variables (nb : nat) (biggest : Z) (dbg : bool) (al : nat -> Z) (cur_ max_ : Z).
Notation R := (reach nb biggest dbg al cur_ max_).
Variable a : nat.
Hypothesis Ha : a <> 0%nat.
Hypothesis Hbig : biggest <= 2 ^ 32.
Notation arena := (arena a).
Notation stands := (stands a).
Notation added := (added a).
Notation removed := (removed a).

Definition finfo (H : hst) (v : attrs) : info := h_info H (a_subpriv v).

Record HInv (H : hst) (C : list chunk) (D : list Z) : Prop := {
  hi_R : R (h_fo H);
  hi_next : h_next H <> 0%nat;
  hi_one : forall n m v w x, arena (h_fo H) n v -> arena (h_fo H) m w ->
     a_begin v <= x < a_end v -> a_begin w <= x < a_end w -> n = m;
  hi_ar : forall n v, arena (h_fo H) n v -> a_subpriv v <> 0%nat /\ (a_subpriv v < h_next H)%nat /\
     i_base (finfo H v) = rdown (a_begin v) SPAN /\ 0 <= i_nwords (finfo H v) /\ 131072 <= a_begin v /\ a_alloc v <> a /\
     0 <= i_unprom (finfo H v) <= 131072;
  hi_own : forall n m v w, arena (h_fo H) n v -> arena (h_fo H) m w -> a_subpriv v = a_subpriv w -> n = m;
  hi_ck : forall c, In c C -> chunk_ok c /\ exists n v, arena (h_fo H) n v /\ holds v c /\
     i_bits (finfo H v) ((c_base c - i_base (finfo H v)) / 16) = true /\
     c_base c + c_req c <= i_base (finfo H v) + i_nwords (finfo H v) * SPAN /\
     (large c = false -> kids_clear (h_fo H) n (c_base c) (c_end c) /\ c_usable c - 8 <= i_unprom (finfo H v)) /\
     (large c = true -> exists p w, stands (h_fo H) p w c);
  hi_bits : forall n v k, arena (h_fo H) n v -> 0 <= k < i_nwords (finfo H v) * NBITS -> i_bits (finfo H v) k = true ->
     (exists c, In c C /\ holds v c /\ c_base c = i_base (finfo H v) + 16 * k) \/ In (i_base (finfo H v) + 16 * k) D;
  hi_big : forall p v, view (h_fo H) p = Some v -> a_alloc v = a -> exists c, In c C /\ large c = true /\ stands (h_fo H) p v c;
  hi_bone : forall p q v w x, view (h_fo H) p = Some v -> view (h_fo H) q = Some w -> a_alloc v = a -> a_alloc w = a ->
     a_begin v <= x < a_end v -> a_begin w <= x < a_end w -> p = q;
  hi_apart : forall c d, In c C -> In d C -> c = d \/ apart c d;
  hi_stale : forall c d, In c C -> large c = false -> In d D -> d <= c_base c \/ c_end c <= d }.

(* ---- records read through views ---- *)
Lemma live_in s n v x : view s n = Some v -> a_begin v <= x < a_end v -> live s n /\ covers s n x.
Proof. intros V X. apply view_inv in V. destruct V as [L ->]. split; [exact L|exact X]. Qed.
Lemma in_live s n x : live s n -> covers s n x -> view s n = Some (attrs_of (bigs s n)) /\
   a_begin (attrs_of (bigs s n)) <= x < a_end (attrs_of (bigs s n)).
Proof. intros L X. split; [apply live_as, L|exact X]. Qed.

Lemma find_arena H C D n v x : HInv H C D -> arena (h_fo H) n v -> a_begin v <= x < a_end v ->
  find_from_root nb (h_fo H) x a true = Ok n.
Proof.
  intros I A X. destruct (big_find_by_allocator _ _ _ _ _ _ (h_fo H) x a true (hi_R _ _ _ I)) as (m & E & [[-> N]|O]).
  - exfalso. destruct A as [V S]. destruct (live_in _ _ _ _ V X) as [L K]. apply (N n L K). unfold has_alloc.
    apply view_inv in V. destruct V as [_ ->]. exact S.
  - rewrite E. f_equal. destruct O as (L & K & S & _). destruct (in_live _ _ _ L K) as [V2 X2].
    exact (hi_one _ _ _ I m n _ v x (conj V2 S) A X2 X).
Qed.

Lemma no_arena H C D x : HInv H C D -> (forall m w, arena (h_fo H) m w -> ~ (a_begin w <= x < a_end w)) ->
  find_from_root nb (h_fo H) x a true = Ok 0%nat.
Proof.
  intros I N. destruct (big_find_by_allocator _ _ _ _ _ _ (h_fo H) x a true (hi_R _ _ _ I)) as (m & E & [[-> _]|O]); [exact E|].
  exfalso. destruct O as (L & K & S & _). destruct (in_live _ _ _ L K) as [V2 X2]. exact (N m _ (conj V2 S) X2).
Qed.

Lemma find_large H C D p v x : HInv H C D -> view (h_fo H) p = Some v -> a_alloc v = a -> a_begin v <= x < a_end v ->
  find_from_root nb (h_fo H) x a false = Ok p.
Proof.
  intros I V A X. destruct (big_find_by_allocator _ _ _ _ _ _ (h_fo H) x a false (hi_R _ _ _ I)) as (m & E & [[-> N]|O]).
  - exfalso. destruct (live_in _ _ _ _ V X) as [L K]. apply (N p L K). unfold has_alloc.
    apply view_inv in V. destruct V as [_ ->]. exact A.
  - rewrite E. f_equal. destruct O as (L & K & S & _). destruct (in_live _ _ _ L K) as [V2 X2].
    exact (hi_bone _ _ _ I m p _ v x V2 V S A X2 X).
Qed.

Lemma no_large H C D x : HInv H C D -> (forall c, In c C -> large c = true -> ~ (c_base c <= x < c_end c)) ->
  find_from_root nb (h_fo H) x a false = Ok 0%nat.
Proof.
  intros I N. destruct (big_find_by_allocator _ _ _ _ _ _ (h_fo H) x a false (hi_R _ _ _ I)) as (m & E & [[-> _]|O]); [exact E|].
  exfalso. destruct O as (L & K & S & _). destruct (in_live _ _ _ L K) as [V2 X2].
  destruct (hi_big _ _ _ I m _ V2 S) as (c & Ic & Lc & (_ & _ & B & En & _)).
  destruct (hi_ck _ _ _ I c Ic) as [[_ _ Rm _] _]. apply (N c Ic Lc). unfold c_end. lia.
Qed.

(* the innermost record where nothing lies inside it *)
Lemma innermost_clear s n v x lo hi : R s -> view s n = Some v -> a_begin v <= x < a_end v ->
  kids_clear s n lo hi -> lo <= x < hi -> lookup_answer s x n.
Proof.
  intros HR V X K Hx. destruct (big_lookup_innermost _ _ _ _ _ _ s x HR) as (r & Fr & LA). clear Fr.
  destruct (live_in _ _ _ _ V X) as [Ln Cn]. assert (LA0 := LA). unfold lookup_answer in LA.
  destruct (Nat.eqb_spec r 0) as [Er|Hr]; [exfalso; exact (LA n Ln Cn)|]. destruct LA as (Lr & Cr & An). specialize (An n Ln Cn).
  destruct (Nat.eq_dec r n) as [Er|Ne]; [rewrite <- Er; exact LA0|]. exfalso.
  assert (HF : forest s) by (exact (proj1 (big_forest_always _ _ _ _ _ _ s HR))).
  assert (G : forall m, anc s n m -> live s m -> covers s m x -> m <> n -> exists k, live s k /\ covers s k x /\ b_parent (bigs s k) = n).
  { intros m A. induction A as [|m P A IH]; intros Lm Cm Nm; [congruence|].
    destruct (Nat.eq_dec (b_parent (bigs s m)) n) as [E|E]; [exists m; auto|].
    destruct (fo_parent _ HF m Lm) as [P0|Lp]; [congruence|]. apply IH; [exact Lp| |exact E].
    destruct (fo_inside _ HF m Lm P). unfold covers in *. lia. }
  destruct (G r An Lr Cr Ne) as (k & Lk & Ck & Pk). destruct (K k _ (live_as _ _ Lk) Pk); unfold covers in Ck; cbn in *; lia.
Qed.

Lemma leaf_clear s n v x lo hi : R s -> view s n = Some v -> a_begin v <= x < a_end v ->
  kids_clear s n lo hi -> lo <= x < hi -> leaf_bigalloc nb s x = Ok n /\ find_deepest nb s x = Ok n.
Proof.
  intros HR V X K Hx. assert (A := innermost_clear s n v x lo hi HR V X K Hx). split.
  - destruct (big_leaf_lookup_innermost _ _ _ _ _ _ s x HR) as (r & E & B). rewrite E. f_equal.
    exact (big_lookup_unique _ _ _ _ _ _ s x r n HR B A).
  - destruct (big_lookup_innermost _ _ _ _ _ _ s x HR) as (r & E & B). rewrite E. f_equal.
    exact (big_lookup_unique _ _ _ _ _ _ s x r n HR B A).
Qed.

Lemma arena_width s n v : R s -> view s n = Some v -> a_end v - a_begin v <= biggest.
Proof.
  intros HR V. destruct (reach_good _ _ _ _ _ _ _ HR) as [_ W]. apply view_inv in V. destruct V as [L ->].
  specialize (W n L). unfold width in W. exact W.
Qed.

(* ---- making a record an arena ---- *)
Lemma mk_arena H C D n v : HInv H C D -> view (h_fo H) n = Some v -> a_sub v = 0%nat -> 131072 <= a_begin v -> a_alloc v <> a ->
  (forall m w, arena (h_fo H) m w -> a_end w <= a_begin v \/ a_end v <= a_begin w) ->
  let s1 := set_sub (set_sub (h_fo H) n a 0) n a (h_next H) in
  let v1 := mkAttrs (a_begin v) (a_end v) (a_parent v) (a_alloc v) a (a_priv v) (h_next H) in
  let H1 := mkH s1 (fun j => if Nat.eqb j (h_next H) then mkInfo (rdown (a_begin v) SPAN) 0 (fun _ => false) 0 0 else h_info H j) (S (h_next H)) in
  HInv H1 C D /\ arena s1 n v1 /\ (forall m, view s1 m = if Nat.eqb m n then Some v1 else view (h_fo H) m).
Proof.
  intros I V S0 B A Dj s1 v1 H1.
  destruct (view_inv _ _ _ V) as [Ln Ev].
  assert (HR1 : R (set_sub (h_fo H) n a 0)).
  { apply (reach_step _ _ _ _ _ _ (h_fo H) (SetSub n a 0) _ (hi_R _ _ _ I) Ln). reflexivity. }
  destruct (reach_good _ _ _ _ _ _ _ (hi_R _ _ _ I)) as [(K & rk & HI) _].
  destruct (set_sub_ok nb al (h_fo H) K rk n a 0 HI Ln) as [HI1 W1].
  assert (Ln1 : live (set_sub (h_fo H) n a 0) n) by (apply view_live; rewrite W1, Nat.eqb_refl; discriminate).
  assert (HR2 : R s1).
  { apply (reach_step _ _ _ _ _ _ (set_sub (h_fo H) n a 0) (SetSub n a (h_next H)) _ HR1 Ln1). reflexivity. }
  destruct (set_sub_ok nb al (set_sub (h_fo H) n a 0) K rk n a (h_next H) HI1 Ln1) as [HI2 W2].
  assert (VW : forall m, view s1 m = if Nat.eqb m n then Some v1 else view (h_fo H) m).
  { intro m. unfold s1. rewrite W2. destruct (Nat.eqb_spec m n) as [->|Ne].
    - assert (X := W1 n). rewrite Nat.eqb_refl in X. rewrite (live_as _ _ Ln1) in X. injection X; intros X1 X2 X3 X4 X5 X6 X7.
      unfold v1. rewrite X2, X4, X5, X6, X7, Ev. reflexivity.
    - rewrite W1. destruct (Nat.eqb_spec m n); [congruence|reflexivity]. }
  assert (AR : forall m w, arena s1 m w -> (m = n /\ w = v1) \/ (m <> n /\ arena (h_fo H) m w)).
  { intros m w [V1 S1]. rewrite VW in V1. destruct (Nat.eqb_spec m n); [left; split; [auto|congruence]|right; split; [auto|split; auto]]. }
  assert (AN : forall m w, arena (h_fo H) m w -> arena s1 m w /\ m <> n).
  { intros m w [V1 S1]. assert (m <> n) by (intros ->; rewrite V in V1; injection V1 as <-; congruence).
    split; [|auto]. split; [rewrite VW; destruct (Nat.eqb_spec m n); [congruence|auto]|auto]. }
  assert (FI : forall m w, arena (h_fo H) m w -> finfo H1 w = finfo H w).
  { intros m w X. unfold finfo, H1. cbn [h_info]. destruct (hi_ar _ _ _ I m w X) as (_ & Lt & _).
    destruct (Nat.eqb_spec (a_subpriv w) (h_next H)); [lia|reflexivity]. }
  assert (FN : finfo H1 v1 = mkInfo (rdown (a_begin v) SPAN) 0 (fun _ => false) 0 0).
  { unfold finfo, H1, v1. cbn [h_info a_subpriv]. rewrite Nat.eqb_refl. reflexivity. }
  assert (KC : forall m lo hi, kids_clear (h_fo H) m lo hi -> kids_clear s1 m lo hi).
  { intros m lo hi Kc k w Vk Pk. rewrite VW in Vk. destruct (Nat.eqb_spec k n) as [->|]; [|exact (Kc k w Vk Pk)].
    injection Vk as <-. exact (Kc n v V Pk). }
  assert (ST : forall p w c, stands (h_fo H) p w c -> stands s1 p w c).
  { intros p w c (X1 & X2 & X3). assert (p <> n) by (intros ->; rewrite V in X1; injection X1 as <-; congruence).
    split; [rewrite VW; destruct (Nat.eqb_spec p n); [congruence|auto]|auto]. }
  assert (VA : forall p w, view s1 p = Some w -> a_alloc w = a -> view (h_fo H) p = Some w).
  { intros p w X Y. rewrite VW in X. destruct (Nat.eqb_spec p n); [injection X as <-; cbn in Y; congruence|exact X]. }
  split; [|split; [split; [rewrite VW, Nat.eqb_refl; reflexivity|reflexivity]|exact VW]].
  constructor; change (h_fo H1) with s1; change (h_next H1) with (S (h_next H)).
  - exact HR2.
  - lia.
  - intros p q v2 w2 x X Y Hx Hy. destruct (AR _ _ X) as [[-> ->]|[_ X']]; destruct (AR _ _ Y) as [[-> ->]|[_ Y']]; [auto| | |].
    + destruct (Dj _ _ Y'); cbn in *; lia.
    + destruct (Dj _ _ X'); cbn in *; lia.
    + exact (hi_one _ _ _ I p q v2 w2 x X' Y' Hx Hy).
  - intros m w X. destruct (AR _ _ X) as [[-> ->]|[_ X']].
    + rewrite FN. cbn. assert (hn := hi_next _ _ _ I). repeat split; first [assumption|lia].
    + rewrite (FI m w X'). destruct (hi_ar _ _ _ I m w X') as (Y1 & Y2 & Y3). split; [auto|]. split; [lia|auto].
  - intros p q v2 w2 X Y E. destruct (AR _ _ X) as [[-> ->]|[_ X']]; destruct (AR _ _ Y) as [[-> ->]|[_ Y']]; [auto| | |].
    + destruct (hi_ar _ _ _ I _ _ Y') as (_ & Lt & _). cbn in E. lia.
    + destruct (hi_ar _ _ _ I _ _ X') as (_ & Lt & _). cbn in E. lia.
    + exact (hi_own _ _ _ I p q v2 w2 X' Y' E).
  - intros c Ic. destruct (hi_ck _ _ _ I c Ic) as [Ok1 (m & w & X1 & X2 & X3 & X4 & X5 & X6)]. split; [exact Ok1|].
    exists m, w. rewrite (FI m w X1). split; [apply AN, X1|]. split; [exact X2|]. split; [exact X3|]. split; [exact X4|].
    split; [intro Sm; destruct (X5 Sm); split; auto|]. intro Lg. destruct (X6 Lg) as (p & w2 & X). exists p, w2. auto.
  - intros m w k X. destruct (AR _ _ X) as [[-> ->]|[_ X']].
    + rewrite FN. cbn. intros; lia.
    + rewrite (FI m w X'). exact (hi_bits _ _ _ I m w k X').
  - intros p w X Y. destruct (hi_big _ _ _ I p w (VA _ _ X Y) Y) as (c & Ic & Lc & Sc). exists c. auto.
  - intros p q v2 w2 x X Y Ax Ay. exact (hi_bone _ _ _ I p q v2 w2 x (VA _ _ X Ax) (VA _ _ Y Ay) Ax Ay).
  - exact (hi_apart _ _ _ I).
  - exact (hi_stale _ _ _ I).
Qed.

Lemma ensure_known H C D n v x : HInv H C D -> arena (h_fo H) n v -> a_begin v <= x < a_end v ->
  ensure_arena_info nb dbg a H x = Ok (H, a_subpriv v) /\ arena_info nb dbg a H x = Ok (H, a_subpriv v).
Proof.
  intros I A X. unfold ensure_arena_info, arena_info, arena_for. rewrite (find_arena _ _ _ _ _ _ I A X). cbn [bind].
  destruct (view_inv _ _ _ (proj1 A)) as [[N0 _] E]. destruct (Nat.eqb_spec n 0); [congruence|]. cbn [negb bind].
  assert (Es : b_subpriv (bigs (h_fo H) n) = a_subpriv v) by (rewrite E; reflexivity).
  destruct (hi_ar _ _ _ I n v A) as (P & _). unfold ensure_info. rewrite Es. destruct (Nat.eqb_spec (a_subpriv v) 0); [congruence|].
  split; reflexivity.
Qed.

Lemma ensure_fresh H C D n v lo hi x : HInv H C D -> view (h_fo H) n = Some v -> a_sub v = 0%nat -> a_subpriv v = 0%nat ->
  131072 <= a_begin v -> a_alloc v <> a ->
  (forall m w, arena (h_fo H) m w -> a_end w <= a_begin v \/ a_end v <= a_begin w) ->
  a_begin v <= x < a_end v -> kids_clear (h_fo H) n lo hi -> lo <= x < hi ->
  exists H1 v1, ensure_arena_info nb dbg a H x = Ok (H1, a_subpriv v1) /\ HInv H1 C D /\ arena (h_fo H1) n v1 /\
    a_begin v1 = a_begin v /\ a_end v1 = a_end v /\ a_parent v1 = a_parent v /\ a_alloc v1 = a_alloc v /\ a_priv v1 = a_priv v /\
    forall m, view (h_fo H1) m = if Nat.eqb m n then Some v1 else view (h_fo H) m.
Proof.
  intros I V S0 P0 B A Dj X K Hx. destruct (mk_arena H C D n v I V S0 B A Dj) as (I1 & A1 & VW). cbv zeta in I1, A1, VW.
  destruct (leaf_clear (h_fo H) n v x lo hi (hi_R _ _ _ I) V X K Hx) as [_ FD].
  destruct (view_inv _ _ _ V) as [[N0 L0] E].
  eexists _, _. split; [|split; [exact I1|split; [exact A1|cbn; repeat split; exact VW]]].
  unfold ensure_arena_info, arena_for. rewrite (no_arena H C D x I) by (intros m w Y Z0; destruct (Dj m w Y); lia). cbn [bind negb Nat.eqb].
  rewrite FD. cbn [bind]. destruct (Nat.eqb_spec n 0); [congruence|].
  assert (Es : b_sub (bigs (h_fo H) n) = 0%nat) by (rewrite <- S0, E; reflexivity).
  assert (Ep : b_subpriv (bigs (h_fo H) n) = 0%nat) by (rewrite <- P0, E; reflexivity).
  rewrite Es, Ep. cbn [Nat.eqb]. rewrite asrt_true by reflexivity. cbn [bind].
  unfold ensure_info. cbn [h_fo h_info h_next]. set (s0 := set_sub (h_fo H) n a 0).
  assert (Q : bigs s0 n = mkBig (b_begin (bigs (h_fo H) n)) (b_end (bigs (h_fo H) n)) (b_parent (bigs (h_fo H) n)) (b_first (bigs (h_fo H) n)) (b_next (bigs (h_fo H) n)) (b_prev (bigs (h_fo H) n)) (b_alloc (bigs (h_fo H) n)) a (b_priv (bigs (h_fo H) n)) 0).
  { unfold s0, set_sub. rewrite put_bigs, Nat.eqb_refl. reflexivity. }
  rewrite Q. cbn [b_subpriv b_sub b_begin Nat.eqb fst h_fo h_info h_next].
  assert (Q1 : b_subpriv (bigs (set_sub s0 n a (h_next H)) n) = h_next H) by (unfold set_sub; rewrite put_bigs, Nat.eqb_refl; reflexivity).
  rewrite Q1. destruct (Nat.eqb_spec (h_next H) 0) as [Z0|_]; [destruct (hi_next _ _ _ I Z0)|].
  rewrite E. reflexivity.
Qed.

(* ---- the bitmap ---- *)
Lemma ensure_to_ok H C D n v e : HInv H C D -> arena (h_fo H) n v -> a_begin v < e <= a_end v ->
  exists H1, ensure_to nb dbg a H (a_subpriv v) e = Ok H1 /\ h_fo H1 = h_fo H /\ h_next H1 = h_next H /\
    (forall j, j <> a_subpriv v -> h_info H1 j = h_info H j) /\
    i_base (finfo H1 v) = i_base (finfo H v) /\ i_nwords (finfo H v) <= i_nwords (finfo H1 v) /\
    e <= i_base (finfo H1 v) + i_nwords (finfo H1 v) * SPAN /\ i_unprom (finfo H1 v) = i_unprom (finfo H v) /\
    (forall k, 0 <= k < i_nwords (finfo H1 v) * NBITS -> i_bits (finfo H1 v) k = (k <? i_nwords (finfo H v) * NBITS) && i_bits (finfo H v) k).
Proof.
  intros I A E. unfold ensure_to. rewrite (find_arena _ _ _ _ _ (e - 1) I A ltac:(lia)). cbn [bind].
  destruct (view_inv _ _ _ (proj1 A)) as [[N0 _] Ev]. destruct (Nat.eqb_spec n 0); [congruence|]. cbn [negb]. rewrite asrt_true by reflexivity. cbn [bind].
  destruct (hi_ar _ _ _ I n v A) as (_ & _ & IB & NW & _). fold (finfo H v).
  assert (Eb : b_begin (bigs (h_fo H) n) = a_begin v) by (rewrite Ev; reflexivity). rewrite Eb, <- IB, Z.eqb_refl, asrt_true by reflexivity. cbn [bind].
  destruct (rup_span e) as [U1 U2]. destruct (rdown_span (a_begin v)) as [D1 D2]. rewrite <- IB in D1, D2.
  set (f := finfo H v) in *. set (t := (rup e SPAN - i_base f) / SPAN).
  assert (T : i_base f + t * SPAN = rup e SPAN) by (unfold t, SPAN; clear - U2 D2; unfold rup, SPAN in *; lia).
  destruct (Z.ltb_spec (i_nwords f) t).
  - eexists. split; [reflexivity|]. cbn [set_info h_fo h_next h_info]. split; [auto|]. split; [auto|].
    split; [intros j J; destruct (Nat.eqb_spec j (a_subpriv v)); [congruence|reflexivity]|].
    unfold finfo, set_info. cbn [h_info]. rewrite Nat.eqb_refl. cbn [i_base i_nwords i_bits i_unprom]. fold (finfo H v). fold f.
    split; [auto|]. split; [lia|]. split; [lia|]. split; [auto|].
    intros k K. destruct (Z.leb_spec (i_nwords f * NBITS) k); destruct (Z.ltb_spec k (i_nwords f * NBITS)); try lia; reflexivity.
  - eexists. split; [reflexivity|]. split; [auto|]. split; [auto|]. split; [auto|]. fold f.
    split; [auto|]. split; [lia|]. split; [unfold SPAN in *; lia|]. split; [auto|].
    intros k K. destruct (Z.ltb_spec k (i_nwords f * NBITS)); try lia; reflexivity.
Qed.

(* where chunk starts lie in the bitmap *)
Lemma idx_range H C D n v c : HInv H C D -> arena (h_fo H) n v -> holds v c -> chunk_ok c ->
  let f := finfo H v in let k := (c_base c - i_base f) / 16 in
  0 <= k /\ i_base f + 16 * k = c_base c /\ i_base f mod 1024 = 0 /\ i_base f <= c_base c /\ c_end c - i_base f < 2 ^ 34.
Proof.
  intros I A [H1 H2] [K1 K2 K3 K4] f k. destruct (hi_ar _ _ _ I n v A) as (_ & _ & IB & _ & B & _).
  destruct (rdown_span (a_begin v)) as [D1 D2]. fold f in IB. rewrite <- IB in D1, D2.
  assert (W := arena_width _ _ _ (hi_R _ _ _ I) (proj1 A)).
  assert (X := idx_exact (c_base c) (i_base f) K1 D2). fold k in X. clear IB.
  repeat split; try assumption; try lia.
Qed.

(* ---- adding a chunk ---- *)
Lemma insert_inv H C D n v c H' : HInv H C D -> arena (h_fo H) n v -> holds v c -> kids_clear (h_fo H) n (c_base c) (c_end c) ->
  chunk_ok c -> (forall d, In d C -> apart c d) -> (large c = false -> forall d, In d D -> d <= c_base c \/ c_end c <= d) ->
  R (h_fo H') -> h_next H' = h_next H -> (forall j, j <> a_subpriv v -> h_info H' j = h_info H j) -> added (h_fo H) (h_fo H') n c ->
  let f := finfo H v in let f' := finfo H' v in let k0 := (c_base c - i_base f) / 16 in
  i_base f' = i_base f -> i_nwords f <= i_nwords f' -> c_base c + c_req c <= i_base f + i_nwords f' * SPAN ->
  (forall k, 0 <= k < i_nwords f' * NBITS -> i_bits f' k = (k =? k0) || ((k <? i_nwords f * NBITS) && i_bits f k)) ->
  i_unprom f <= i_unprom f' <= 131072 -> (large c = false -> c_usable c - 8 <= i_unprom f') ->
  HInv H' (c :: C) D.
Proof.
  intros I A Hc Kc Ok1 Ap Stale HR Nx Oth Add f f' k0 E1 E2 E3 E4 E5 E6.
  destruct (idx_range H C D n v c I A Hc Ok1) as (G1 & G2 & G3 & G4 & G5). fold f in G1, G2, G3, G4, G5. fold k0 in G1, G2.
  assert (N0 : n <> 0%nat) by (destruct (view_inv _ _ _ (proj1 A)) as [[N0 _] _]; exact N0).
  assert (VO : forall m w, view (h_fo H) m = Some w -> view (h_fo H') m = Some w).
  { intros m w V. unfold added in Add. destruct (large c); [|rewrite Add; exact V]. destruct Add as (p & P & VW). rewrite VW.
    destruct (Nat.eqb_spec m p); [congruence|exact V]. }
  assert (VN : forall m w, view (h_fo H') m = Some w -> view (h_fo H) m = Some w \/
     (large c = true /\ view (h_fo H) m = None /\ w = mkAttrs (c_base c) (c_base c + c_req c) n a 0 0 0)).
  { intros m w V. unfold added in Add. destruct (large c); [|rewrite Add in V; auto]. destruct Add as (p & P & VW). rewrite VW in V.
    destruct (Nat.eqb_spec m p) as [->|]; [injection V as <-; auto|auto]. }
  assert (AR : forall m w, arena (h_fo H') m w -> arena (h_fo H) m w).
  { intros m w [V S]. destruct (VN m w V) as [X|(_ & _ & ->)]; [split; auto|cbn in S; congruence]. }
  assert (AN : forall m w, arena (h_fo H) m w -> arena (h_fo H') m w) by (intros m w [V S]; split; auto).
  assert (FI : forall m w, arena (h_fo H) m w -> m <> n -> finfo H' w = finfo H w).
  { intros m w X Ne. unfold finfo. apply Oth. intro E. apply Ne. exact (hi_own _ _ _ I m n w v X A E). }
  assert (FE : forall w, arena (h_fo H) n w -> finfo H' w = f' /\ finfo H w = f /\ w = v).
  { intros w [X _]. destruct A as [Y _]. rewrite Y in X. injection X as <-. auto. }
  assert (ST : forall p w d, stands (h_fo H) p w d -> stands (h_fo H') p w d) by (intros p w d (X1 & X); split; auto).
  destruct Ok1 as [K1 K2 K3 K4].
  constructor.
  - exact HR.
  - rewrite Nx. exact (hi_next _ _ _ I).
  - intros p q v2 w2 x X Y. exact (hi_one _ _ _ I p q v2 w2 x (AR _ _ X) (AR _ _ Y)).
  - intros m w X. apply AR in X. rewrite Nx. destruct (hi_ar _ _ _ I m w X) as (Y1 & Y2 & Y3 & Y4 & Y5 & Y6 & Y7).
    destruct (Nat.eq_dec m n) as [->|Ne]; [|rewrite (FI m w X Ne); auto 10].
    destruct (FE w X) as (Z1 & Z2 & Z3). rewrite Z1. rewrite Z2 in *. rewrite E1. repeat split; try assumption; lia.
  - intros p q v2 w2 X Y. exact (hi_own _ _ _ I p q v2 w2 (AR _ _ X) (AR _ _ Y)).
  - intros d [<-|Id].
    + split; [constructor; assumption|]. exists n, v. split; [auto|]. split; [exact Hc|]. change (finfo H' v) with f'. rewrite E1. split; [|split; [|split]].
      * fold k0. rewrite E4, Z.eqb_refl; [reflexivity|]. unfold NBITS, SPAN in *. lia.
      * exact E3.
      * intro Sm. split; [|auto]. intros k w Vk Pk. destruct (VN k w Vk) as [X|(L & _)]; [exact (Kc k w X Pk)|congruence].
      * intro Lg. unfold added in Add. rewrite Lg in Add. destruct Add as (p & P & VW). exists p. eexists. split; [rewrite VW, Nat.eqb_refl; reflexivity|].
        cbn. auto.
    + destruct (hi_ck _ _ _ I d Id) as [Okd (m & w & X1 & X2 & X3 & X4 & X5 & X6)]. split; [exact Okd|]. exists m, w. split; [auto|]. split; [auto|].
      assert (KK : large d = false -> kids_clear (h_fo H') m (c_base d) (c_end d)).
      { intros Sm k w2 Vk Pk. destruct (VN k w2 Vk) as [X|(L & _ & ->)]; [exact (proj1 (X5 Sm) k w2 X Pk)|]. cbn.
        destruct (Ap d Id) as [Q|Q]; unfold c_end in *; lia. }
      assert (LL : large d = true -> exists p w, stands (h_fo H') p w d) by (intro Lg; destruct (X6 Lg) as (p & w2 & X); exists p, w2; auto).
      destruct (Nat.eq_dec m n) as [->|Ne].
      * destruct (FE w X1) as (Z1 & Z2 & Z3). rewrite Z1. rewrite Z2 in *. rewrite E1.
        destruct (idx_range H C D n w d I X1 X2 Okd) as (J1 & J2 & J3 & J4 & J5). rewrite Z2 in *. destruct Okd as [_ dr _ _].
        split; [|split; [unfold SPAN in *; lia|split; [|exact LL]]].
        -- rewrite E4 by (unfold NBITS, SPAN in *; lia). rewrite X3. destruct (Z.ltb_spec ((c_base d - i_base f) / 16) (i_nwords f * NBITS)); [apply orb_true_r|].
           unfold NBITS, SPAN in *. lia.
        -- intro Sm. split; [auto|]. destruct (X5 Sm). lia.
      * rewrite (FI m w X1 Ne). split; [exact X3|]. split; [exact X4|]. split; [|exact LL]. intro Sm. split; [auto|]. destruct (X5 Sm). lia.
  - intros m w k X Hk Bk. apply AR in X. destruct (Nat.eq_dec m n) as [->|Ne].
    + destruct (FE w X) as (Z1 & Z2 & Z3). rewrite Z1 in *. rewrite E1. rewrite E4 in Bk by exact Hk. apply orb_prop in Bk. destruct Bk as [Bk|Bk].
      * left. exists c. split; [left; auto|]. split; [rewrite Z3; exact Hc|]. apply Z.eqb_eq in Bk. rewrite Bk. lia.
      * apply andb_prop in Bk. destruct Bk as [Lt Bk]. apply Z.ltb_lt in Lt. rewrite <- Z2 in Bk.
        destruct (hi_bits _ _ _ I n w k X ltac:(rewrite Z2; lia) Bk) as [(d & Id & Hd & Ed)|Id]; rewrite Z2 in *; [left; exists d; split; [right; auto|split; [exact Hd|exact Ed]]|right; exact Id].
    + rewrite (FI m w X Ne) in *. destruct (hi_bits _ _ _ I m w k X Hk Bk) as [(d & Id & Hd & Ed)|Id]; [left; exists d; split; [right; auto|split; [exact Hd|exact Ed]]|right; exact Id].
  - intros p w V Aw. destruct (VN p w V) as [X|(Lg & _ & ->)].
    + destruct (hi_big _ _ _ I p w X Aw) as (d & Id & Ld & Sd). exists d. split; [right; auto|auto].
    + exists c. split; [left; auto|]. split; [auto|]. split; [auto|]. cbn. auto.
  - assert (CR : forall p w x, view (h_fo H) p = Some w -> a_alloc w = a -> a_begin w <= x < a_end w -> ~ (c_base c <= x < c_base c + c_req c)).
    { intros p w x X Aw Hx. destruct (hi_big _ _ _ I p w X Aw) as (d & Id & Ld & (_ & _ & B & En & _)).
      destruct (hi_ck _ _ _ I d Id) as [[_ _ dm _] _]. destruct (Ap d Id); unfold c_end in *; lia. }
    intros p q v2 w2 x X Y Ax Ay Hx Hy. destruct (VN p v2 X) as [X'|(Lg & Np & ->)]; destruct (VN q w2 Y) as [Y'|(Lg2 & Nq & ->)].
    + exact (hi_bone _ _ _ I p q v2 w2 x X' Y' Ax Ay Hx Hy).
    + exfalso. exact (CR p v2 x X' Ax Hx Hy).
    + exfalso. exact (CR q w2 x Y' Ay Hy Hx).
    + unfold added in Add. rewrite Lg in Add. destruct Add as (r & _ & VW). rewrite VW in X, Y.
      destruct (Nat.eqb_spec p r); [|congruence]. destruct (Nat.eqb_spec q r); congruence.
  - intros d e [<-|Id] [<-|Ie]; [auto|right; apply Ap; auto| |exact (hi_apart _ _ _ I d e Id Ie)].
    right. destruct (Ap d Id) as [Q|Q]; [right|left]; exact Q.
  - intros d e [<-|Id] Sm Ie; [exact (Stale Sm e Ie)|exact (hi_stale _ _ _ I d e Id Sm Ie)].
Qed.

(* ---- removing a chunk ---- *)
Lemma chunk_eqb_spec c d : reflect (c = d) (chunk_eqb c d).
Proof.
  unfold chunk_eqb. destruct c as [x y z], d as [x' y' z']. cbn.
  destruct (Z.eqb_spec x x'); [|constructor; congruence]. destruct (Z.eqb_spec y y'); [|constructor; congruence].
  destruct (Z.eqb_spec z z'); constructor; congruence.
Qed.
Lemma in_without c d C : In d (without c C) <-> In d C /\ d <> c.
Proof.
  unfold without. rewrite filter_In. destruct (chunk_eqb_spec c d) as [->|N]; cbn; intuition congruence.
Qed.

Lemma remove_inv H C D n v c H' : HInv H C D -> In c C -> arena (h_fo H) n v -> holds v c ->
  R (h_fo H') -> h_next H' = h_next H -> (forall j, j <> a_subpriv v -> h_info H' j = h_info H j) -> removed (h_fo H) (h_fo H') c ->
  let f := finfo H v in let f' := finfo H' v in let k0 := (c_base c - i_base f) / 16 in
  i_base f' = i_base f -> i_nwords f' = i_nwords f -> i_unprom f' = i_unprom f ->
  (forall k, i_bits f' k = i_bits f k && (large c || negb (k =? k0))) ->
  HInv H' (without c C) (if large c then c_base c :: D else D).
Proof.
  intros I Ic A Hc HR Nx Oth Rm f f' k0 E1 E2 E3 E4.
  destruct (hi_ck _ _ _ I c Ic) as [Okc _].
  destruct (idx_range H C D n v c I A Hc Okc) as (G1 & G2 & G3 & G4 & G5). fold f in G1, G2, G3, G4, G5. fold k0 in G1, G2.
  assert (VO : forall m w, view (h_fo H') m = Some w -> view (h_fo H) m = Some w).
  { intros m w V. unfold removed in Rm. destruct (large c); [|rewrite Rm in V; exact V]. destruct Rm as (p & y & DD & _ & _ & VW). rewrite VW in V.
    destruct (existsb (Nat.eqb m) DD); [discriminate|exact V]. }
  assert (VK : forall m w, view (h_fo H) m = Some w ->
     (large c = true -> a_begin w < c_base c \/ c_base c + c_req c < a_end w) -> view (h_fo H') m = Some w).
  { intros m w V Ou. unfold removed in Rm. destruct (large c); [|rewrite Rm; exact V]. destruct Rm as (p & y & DD & (S1 & _ & S3 & S4 & _) & Sub & VW). rewrite VW.
    destruct (existsb (Nat.eqb m) DD) eqn:X; [|exact V]. exfalso. apply existsb_exists in X. destruct X as (q & X & Y). apply Nat.eqb_eq in Y. subst q.
    apply Sub in X. destruct X as [_ X]. destruct (vf_anc _ _ _ _ _ _ _ (hi_R _ _ _ I) p m y w S1 V X) as [Z1 Z2]. specialize (Ou eq_refl). lia. }
  assert (AR : forall m w, arena (h_fo H') m w -> arena (h_fo H) m w) by (intros m w [V S]; split; auto).
  assert (OV : forall m w, arena (h_fo H) m w -> m <> n -> a_end w <= a_begin v \/ a_end v <= a_begin w).
  { intros m w X Ne. assert (R1 := vf_range _ _ _ _ _ _ _ (hi_R _ _ _ I) m w (proj1 X)). assert (R2 := vf_range _ _ _ _ _ _ _ (hi_R _ _ _ I) n v (proj1 A)).
    destruct (Z.le_gt_cases (a_end w) (a_begin v)); [auto|]. destruct (Z.le_gt_cases (a_end v) (a_begin w)); [auto|].
    exfalso. apply Ne. apply (hi_one _ _ _ I m n w v (Z.max (a_begin v) (a_begin w)) X A); lia. }
  assert (FE : forall w, arena (h_fo H) n w -> finfo H' w = f' /\ finfo H w = f /\ w = v).
  { intros w [X _]. destruct A as [Y _]. rewrite Y in X. injection X as <-. auto. }
  destruct Okc as [K1 K2 K3 K4]. destruct Hc as [Hc1 Hc2]. unfold c_end in Hc2.
  assert (AN : forall m w, arena (h_fo H) m w -> arena (h_fo H') m w).
  { intros m w X. split; [|apply X]. apply VK; [apply X|]. intros _. assert (R1 := vf_range _ _ _ _ _ _ _ (hi_R _ _ _ I) m w (proj1 X)).
    destruct (Nat.eq_dec m n) as [->|Ne]; [destruct (FE w X) as (_ & _ & ->); lia|]. destruct (OV m w X Ne); lia. }
  assert (FI : forall m w, arena (h_fo H) m w -> m <> n -> finfo H' w = finfo H w).
  { intros m w X Ne. unfold finfo. apply Oth. intro E. apply Ne. exact (hi_own _ _ _ I m n w v X A E). }
  assert (AP : forall d, In d (without c C) -> In d C /\ apart c d).
  { intros d Id. apply in_without in Id. destruct Id as [Id Ne]. split; [auto|]. destruct (hi_apart _ _ _ I c d Ic Id); [congruence|auto]. }
  assert (KC : forall m lo hi, kids_clear (h_fo H) m lo hi -> kids_clear (h_fo H') m lo hi) by (intros m lo hi Kk k w Vk; exact (Kk k w (VO _ _ Vk))).
  assert (ST : forall p w d, In d (without c C) -> stands (h_fo H) p w d -> stands (h_fo H') p w d).
  { intros p w d Id (X1 & X2 & X3 & X4 & X5). split; [|auto]. destruct (AP d Id) as [Id' Q]. destruct (hi_ck _ _ _ I d Id') as [[_ d2 d3 _] _].
    apply VK; [exact X1|]. intros _. unfold apart, c_end in Q. lia. }
  constructor.
  - exact HR.
  - rewrite Nx. exact (hi_next _ _ _ I).
  - intros p q v2 w2 x X Y. exact (hi_one _ _ _ I p q v2 w2 x (AR _ _ X) (AR _ _ Y)).
  - intros m w X. apply AR in X. rewrite Nx. destruct (hi_ar _ _ _ I m w X) as (Y1 & Y2 & Y3 & Y4 & Y5 & Y6 & Y7).
    destruct (Nat.eq_dec m n) as [->|Ne]; [|rewrite (FI m w X Ne); auto 10].
    destruct (FE w X) as (Z1 & Z2 & Z3). rewrite Z1. rewrite Z2 in *. rewrite E1, E2, E3. auto 10.
  - intros p q v2 w2 X Y. exact (hi_own _ _ _ I p q v2 w2 (AR _ _ X) (AR _ _ Y)).
  - intros d Id. destruct (AP d Id) as [Id' Q].
    destruct (hi_ck _ _ _ I d Id') as [Okd (m & w & X1 & X2 & X3 & X4 & X5 & X6)]. split; [exact Okd|]. exists m, w. split; [auto|]. split; [auto|].
    assert (LL : large d = true -> exists p w, stands (h_fo H') p w d) by (intro Lg; destruct (X6 Lg) as (p & w2 & X); exists p, w2; auto).
    destruct (Nat.eq_dec m n) as [->|Ne].
    + destruct (FE w X1) as (Z1 & Z2 & Z3). rewrite Z1. rewrite Z2 in *. rewrite E1, E2, E3.
      destruct (idx_range H C D n w d I X1 X2 Okd) as (J1 & J2 & J3 & J4 & J5). rewrite Z2 in *. destruct Okd as [_ dr dr2 _].
      split; [|split; [exact X4|split; [|exact LL]]].
      * rewrite E4, X3. cbn. apply orb_true_iff. right. apply negb_true_iff, Z.eqb_neq. intro E. unfold apart, c_end in Q. rewrite E in J2. lia.
      * intro Sm. split; [apply KC, X5, Sm|]. apply X5, Sm.
    + rewrite (FI m w X1 Ne). split; [exact X3|]. split; [exact X4|]. split; [|exact LL]. intro Sm. split; [apply KC, X5, Sm|]. apply X5, Sm.
  - intros m w k X Hk Bk. apply AR in X.
    assert (Fin : i_base (finfo H' w) = i_base (finfo H w) -> (exists d, In d C /\ holds w d /\ c_base d = i_base (finfo H w) + 16 * k) \/ In (i_base (finfo H w) + 16 * k) D ->
      (large c = false -> holds w c -> c_base c <> i_base (finfo H w) + 16 * k) ->
      (exists d, In d (without c C) /\ holds w d /\ c_base d = i_base (finfo H' w) + 16 * k) \/ In (i_base (finfo H' w) + 16 * k) (if large c then c_base c :: D else D)).
    { intros Eb Cs Nb. rewrite Eb. destruct Cs as [(d & Id & Hd & Ed)|Id].
      - destruct (chunk_eqb_spec c d) as [<-|Ne].
        + destruct (large c); [right; left; lia|]. exfalso. exact (Nb eq_refl Hd Ed).
        + left. exists d. split; [apply in_without; auto|split; [exact Hd|exact Ed]].
      - right. destruct (large c); [right; exact Id|exact Id]. }
    destruct (Nat.eq_dec m n) as [->|Ne].
    + destruct (FE w X) as (Z1 & Z2 & Z3). rewrite Z1 in *. rewrite Z2 in *. rewrite E2 in Hk. rewrite E4 in Bk. apply andb_prop in Bk. destruct Bk as [Bk Bn].
      apply Fin; [exact E1| |].
      * assert (Y := hi_bits _ _ _ I n w k X). rewrite Z2 in Y. auto.
      * intros Sm _ E. rewrite Sm in Bn. cbn in Bn. apply negb_true_iff, Z.eqb_neq in Bn. lia.
    + assert (Ei := FI m w X Ne). rewrite Ei in Hk, Bk. apply Fin; [rewrite Ei; auto|exact (hi_bits _ _ _ I m w k X Hk Bk)|].
      intros _ [W1 W2] _. unfold c_end in W2. destruct (OV m w X Ne); lia.
  - intros p w V Aw. destruct (hi_big _ _ _ I p w (VO _ _ V) Aw) as (d & Id & Ld & Sd). destruct (chunk_eqb_spec c d) as [<-|Ne].
    + exfalso. unfold removed in Rm. rewrite Ld in Rm. destruct Rm as (p2 & y & DD & (S1 & S2 & S3 & S4 & _) & Sub & VW).
      destruct Sd as (T1 & T2 & T3 & T4 & _). assert (p2 = p) by (apply (hi_bone _ _ _ I p2 p y w (c_base c) S1 T1 S2 T2); lia). subst p2.
      assert (In p DD) by (apply Sub; split; [apply (view_inv _ _ _ T1)|constructor]).
      rewrite VW in V. assert (X : existsb (Nat.eqb p) DD = true) by (apply existsb_exists; exists p; split; [auto|apply Nat.eqb_refl]). rewrite X in V. discriminate.
    + exists d. split; [apply in_without; auto|]. split; [auto|]. apply ST; [apply in_without; auto|exact Sd].
  - intros p q v2 w2 x X Y. exact (hi_bone _ _ _ I p q v2 w2 x (VO _ _ X) (VO _ _ Y)).
  - intros d e Id Ie. apply (hi_apart _ _ _ I d e); [apply AP|apply AP]; auto.
  - intros d e Id Sm Ie. destruct (AP d Id) as [Id' Q]. destruct (large c); [|exact (hi_stale _ _ _ I d e Id' Sm Ie)].
    destruct Ie as [<-|Ie]; [|exact (hi_stale _ _ _ I d e Id' Sm Ie)]. unfold apart, c_end in *. lia.
Qed.
End P.
