(* C14: the heap index. *)
From Verif Require Import Base Big_model Big_spec Big_inv Big_set Big_lookup Big_create Big_hist Big_props Big_field Map_state Insert_model Heap_model Heap_spec Heap_proof Heap_calls.

Section P.
Variables (nb : nat) (biggest : Z) (dbg : bool) (al : nat -> Z) (cur_ max_ : Z).
Notation R := (reach nb biggest dbg al cur_ max_).
Variable a : nat.
Hypothesis Ha : a <> 0%nat.
Hypothesis Hbig : biggest <= 2 ^ 32.
Notation arena := (arena a).
Notation stands := (stands a).
Notation HInv := (HInv nb biggest dbg al cur_ max_ a).
Notation do_alloc := (do_alloc nb biggest dbg a).
Notation do_free := (do_free nb biggest dbg a).
Notation pre_realloc := (pre_realloc nb biggest dbg a).
Notation post_realloc := (post_realloc nb biggest dbg a).
Notation query := (query nb dbg a).

(* Every history of the index: the chunks now live, and where large chunks were freed.  A
   reallocation is its two hooks, with the underlying allocator's work in between. *)
Inductive hreach : hst -> list chunk -> list Z -> Prop :=
| hr_start s : R s -> (forall n v, view s n = Some v -> a_sub v <> a /\ a_alloc v <> a) -> hreach (mkH s (fun _ => info0) 1) [] []
| hr_alloc H C D c H' z : hreach H C D -> may_alloc a nb biggest (h_fo H) C D c ->
    do_alloc H (c_base c) (c_req c) (c_usable c) = Ok (H', z) -> hreach H' (c :: C) D
| hr_free H C D c H' : hreach H C D -> In c C -> do_free H (c_base c) = Ok H' ->
    hreach H' (without c C) (if large c then c_base c :: D else D)
| hr_pre H C D c H' : hreach H C D -> In c C -> pre_realloc H (c_base c) = Ok H' ->
    hreach H' (without c C) (if large c then c_base c :: D else D)
| hr_post H C D old modified old_usable c H' z : hreach H C D -> may_alloc a nb biggest (h_fo H) C D c ->
    (exists n v, arena (h_fo H) n v /\ a_begin v <= old < a_end v) ->
    (c_base c = old -> large c = true -> old_usable <= modified) ->
    post_realloc H old modified old_usable (c_req c) (c_base c) (c_usable c) = Ok (H', z) -> hreach H' (c :: C) D
| hr_other H C D s' : hreach H C D -> R s' -> calm a C (h_fo H) s' -> hreach (mkH s' (h_info H) (h_next H)) C D.

(* the record an allocation goes into, after it has become an arena *)
Definition marked (s s1 : st) (n : nat) : Prop := exists v v1, view s n = Some v /\ view s1 n = Some v1 /\
  a_begin v1 = a_begin v /\ a_end v1 = a_end v /\ a_parent v1 = a_parent v /\ a_alloc v1 = a_alloc v /\ a_priv v1 = a_priv v /\
  a_sub v1 = a /\ (a_sub v = a -> v1 = v) /\ forall m, m <> n -> view s1 m = view s m.

Lemma alloc_inv H C D c : HInv H C D -> may_alloc a nb biggest (h_fo H) C D c ->
  exists H' s1 n, do_alloc H (c_base c) (c_req c) (c_usable c) = Ok (H', c_end c - 8) /\ HInv H' (c :: C) D /\
    marked (h_fo H) s1 n /\ added a s1 (h_fo H') n c.
Proof.
  intros I [M1 M2 M3 (n & v & V & Hc & Kc & Lo & Na & Wh) M5]. assert (Hc0 := Hc). destruct Hc as [Hc1 Hc2]. assert (M0 := M1). destruct M1 as [K1 K2 K3 K4].
  assert (Ie : c_end c = c_base c + c_usable c) by reflexivity.
  unfold Heap_model.do_alloc. destruct Wh as [Sa|(S0 & P0 & Dj)].
  - assert (A : arena (h_fo H) n v) by (split; assumption).
    destruct (ensure_known nb biggest dbg al cur_ max_ a H C D n v (c_base c) I A ltac:(lia)) as [E _]. rewrite E. cbn [bind].
    destruct (insert_ok nb biggest dbg al cur_ max_ a Ha Hbig H C D n v c I A Hc0 Kc M0 M2 M3 M5) as (H' & E2 & I2 & Ad).
    exists H', (h_fo H), n. split; [exact E2|]. split; [exact I2|]. split; [|exact Ad]. exists v, v. auto 15.
  - destruct (ensure_fresh nb biggest dbg al cur_ max_ a Ha H C D n v (c_base c) (c_end c) (c_base c) I V S0 P0 Lo Na Dj ltac:(lia) Kc ltac:(lia))
      as (H1 & v1 & E & I1 & A1 & B1 & B2 & B3 & B4 & B5 & VW).
    rewrite E. cbn [bind].
    destruct (insert_ok nb biggest dbg al cur_ max_ a Ha Hbig H1 C D n v1 c I1 A1) as (H' & E2 & I2 & Ad).
    + unfold holds. rewrite B1, B2. exact Hc0.
    + intros k w Vk Pk. rewrite VW in Vk. destruct (Nat.eqb_spec k n) as [->|]; [|exact (Kc k w Vk Pk)].
      injection Vk as <-. rewrite B1, B2. apply (Kc n v V). congruence.
    + exact M0.
    + exact M2.
    + exact M3.
    + intro Lg. destruct (M5 Lg) as [(k & Hk & Uk) HS]. split; [|exact HS]. exists k. split; [exact Hk|].
      destruct (in_use (bigs (h_fo H1) k)) eqn:X; [|reflexivity]. exfalso. assert (L : live (h_fo H1) k) by (split; [lia|exact X]).
      apply view_live in L. rewrite VW in L. destruct (Nat.eqb_spec k n) as [->|].
      * destruct (view_inv _ _ _ V) as [[_ L2] _]. congruence.
      * apply view_live in L. destruct L as [_ L]. congruence.
    + exists H', (h_fo H1), n. split; [exact E2|]. split; [exact I2|]. split; [|exact Ad]. exists v, v1.
      split; [auto|]. split; [apply (proj1 A1)|]. split; [auto|]. split; [auto|]. split; [auto|]. split; [auto|]. split; [auto|]. split; [apply (proj2 A1)|].
      split; [intro; exfalso; congruence|]. intros m Nm. rewrite VW. destruct (Nat.eqb_spec m n); [congruence|reflexivity].
Qed.

Lemma chunk_arena H C D c : HInv H C D -> In c C -> exists n v, arena (h_fo H) n v /\ holds v c /\ a_begin v <= c_base c < a_end v.
Proof.
  intros I Ic. destruct (hi_ck _ _ _ _ _ _ _ _ _ _ I c Ic) as [[_ K2 K3 _] (n & v & A & Hc & _)]. exists n, v. split; [auto|]. split; [auto|].
  destruct Hc as [Hc1 Hc2]. unfold c_end in Hc2. lia.
Qed.

Lemma free_inv H C D c : HInv H C D -> In c C ->
  exists H', do_free H (c_base c) = Ok H' /\ pre_realloc H (c_base c) = Ok H' /\
    HInv H' (without c C) (if large c then c_base c :: D else D) /\ removed a (h_fo H) (h_fo H') c.
Proof.
  intros I Ic. destruct (chunk_arena H C D c I Ic) as (n & v & A & Hc & X).
  destruct (ensure_known nb biggest dbg al cur_ max_ a H C D n v (c_base c) I A X) as [E1 E2].
  destruct (free_ok nb biggest dbg al cur_ max_ a Ha Hbig H C D n v c I Ic A Hc) as (H' & E & I' & Rm).
  exists H'. unfold Heap_model.do_free, Heap_model.pre_realloc. rewrite E1, E2. cbn [bind]. auto.
Qed.

Lemma post_inv H C D old modified old_usable c : HInv H C D -> may_alloc a nb biggest (h_fo H) C D c ->
  (exists n v, arena (h_fo H) n v /\ a_begin v <= old < a_end v) ->
  (c_base c = old -> large c = true -> old_usable <= modified) ->
  exists H' s1 n, post_realloc H old modified old_usable (c_req c) (c_base c) (c_usable c) = Ok (H', c_end c - 8) /\ HInv H' (c :: C) D /\
    marked (h_fo H) s1 n /\ added a s1 (h_fo H') n c.
Proof.
  intros I MA (n & v & A & X) NT. destruct (alloc_inv H C D c I MA) as (H' & s1 & n1 & E & I' & Mk & Ad).
  destruct (ensure_known nb biggest dbg al cur_ max_ a H C D n v old I A X) as [E1 E2].
  exists H', s1, n1. split; [|auto]. unfold Heap_model.post_realloc. rewrite E2. cbn [bind].
  unfold Heap_model.do_alloc in E.
  assert (Nz : (c_base c =? 0) = false).
  { destruct MA as [_ _ _ (m & w & V & [Hc1 _] & _ & Lo & _) _]. apply Z.eqb_neq. lia. }
  rewrite Nz. cbn [negb andb]. destruct (hi_ar _ _ _ _ _ _ _ _ _ _ I n v A) as (P0 & _).
  assert (Fb : exists b, find_from_root nb (h_fo H') old a false = Ok b /\ (b <> 0%nat -> exists w, view (h_fo H') b = Some w /\ a_alloc w = a /\ a_begin w <= old < a_end w)).
  { destruct (big_find_by_allocator _ _ _ _ _ _ (h_fo H') old a false (hi_R _ _ _ _ _ _ _ _ _ _ I')) as (b & Eb & [[-> _]|O]); [exists 0%nat; split; [exact Eb|congruence]|].
    exists b. split; [exact Eb|]. intros _. destruct O as (Lb & Cb & Ab & _). exists (attrs_of (bigs (h_fo H') b)). destruct (in_live _ _ _ Lb Cb) as [V1 V2].
    split; [exact V1|]. split; [exact Ab|exact V2]. }
  destruct Fb as (b & Eb & Fb).
  destruct (Z.eqb_spec (c_base c) old) as [Eo|Ne]; cbn [negb].
  - destruct (Nat.eqb_spec (a_subpriv v) 0); [congruence|]. rewrite Eo in E. rewrite E1 in E. cbn [bind] in E. rewrite E. cbn [bind].
    rewrite Eb. cbn [bind andb].
    replace ((modified <? old_usable) && negb (Nat.eqb b 0)) with false; [reflexivity|]. symmetry. apply andb_false_iff.
    destruct (Nat.eqb_spec b 0) as [|Nb]; [right; reflexivity|left]. apply Z.ltb_ge. apply NT; [exact Eo|].
    destruct (Fb Nb) as (w & V1 & V2 & V3). destruct (hi_big _ _ _ _ _ _ _ _ _ _ I' b w V1 V2) as (d & Id & Ld & (_ & _ & Bd & Ed & _)).
    destruct (hi_apart _ _ _ _ _ _ _ _ _ _ I' c d (or_introl eq_refl) Id) as [<-|Q]; [exact Ld|].
    destruct (hi_ck _ _ _ _ _ _ _ _ _ _ I' d Id) as [[_ d2 d3 _] _]. destruct (hi_ck _ _ _ _ _ _ _ _ _ _ I' c (or_introl eq_refl)) as [[_ c2 c3 _] _].
    exfalso. unfold apart, c_end in Q. lia.
  - rewrite E. cbn [bind]. rewrite Eb. cbn [bind andb]. reflexivity.
Qed.

Theorem hreach_inv H C D : hreach H C D -> HInv H C D.
Proof.
  induction 1 as [s HR Cl|H C D c H' z HH IH MA E|H C D c H' HH IH Ic E|H C D c H' HH IH Ic E|H C D old mo ou c H' z HH IH MA Ar NT E|H C D s' HH IH HR Cm].
  - assert (N1 : forall n v, ~ arena s n v) by (intros n v [V S]; destruct (Cl n v V); congruence).
    constructor; cbn [h_fo h_next]; try (intros; exfalso; eapply N1; eassumption).
    + exact HR.
    + discriminate.
    + intros c [].
    + intros p v V A. destruct (Cl p v V). congruence.
    + intros p q v w x V _ A. destruct (Cl p v V). congruence.
    + intros c d [].
    + intros c d [].
  - destruct (alloc_inv H C D c IH MA) as (H2 & s1 & n & E2 & I2 & _). rewrite E in E2. injection E2 as -> _. exact I2.
  - destruct (free_inv H C D c IH Ic) as (H2 & E2 & _ & I2 & _). rewrite E in E2. injection E2 as ->. exact I2.
  - destruct (free_inv H C D c IH Ic) as (H2 & _ & E2 & I2 & _). rewrite E in E2. injection E2 as ->. exact I2.
  - destruct (post_inv H C D old mo ou c IH MA Ar NT) as (H2 & s1 & n & E2 & I2 & _). rewrite E in E2. injection E2 as -> _. exact I2.
  - exact (calm_inv nb biggest dbg al cur_ max_ a Ha H C D s' IH HR Cm).
Qed.

(* Full statement: every chunk the underlying allocator hands out is indexed, its metadata word
   being the last eight bytes of it, and a large one gets a record of exactly the requested
   range; nothing else changes.  Missing: chunks laid over the start of a freed large chunk,
   and the other conditions of may_alloc (see heap_stale_start_refuted, heap_empty_refuted). *)
Theorem heap_alloc_partial : forall H C D c, hreach H C D -> may_alloc a nb biggest (h_fo H) C D c ->
  exists H' s1 n, do_alloc H (c_base c) (c_req c) (c_usable c) = Ok (H', c_end c - 8) /\ hreach H' (c :: C) D /\
    marked (h_fo H) s1 n /\ added a s1 (h_fo H') n c.
Proof.
  intros H C D c HH MA. destruct (alloc_inv H C D c (hreach_inv _ _ _ HH) MA) as (H' & s1 & n & E & _ & X). exists H', s1, n.
  split; [exact E|]. split; [exact (hr_alloc _ _ _ _ _ _ HH MA E)|exact X].
Qed.

Theorem heap_free_exact : forall H C D c, hreach H C D -> In c C ->
  exists H', do_free H (c_base c) = Ok H' /\ pre_realloc H (c_base c) = Ok H' /\
    hreach H' (without c C) (if large c then c_base c :: D else D) /\ removed a (h_fo H) (h_fo H') c.
Proof.
  intros H C D c HH Ic. destruct (free_inv H C D c (hreach_inv _ _ _ HH) Ic) as (H' & E & E2 & _ & X). exists H'.
  split; [exact E|]. split; [exact E2|]. split; [exact (hr_free _ _ _ _ _ HH Ic E)|exact X].
Qed.

(* Full statement: a reallocation leaves the index as if the old chunk had been freed and the
   new one allocated, or, if it fails, as it was.  Missing: a large chunk shrunk in place to
   one still large (heap_shrink_refuted) and failed requests (heap_failed_realloc_refuted). *)
Theorem heap_realloc_partial : forall H C D old modified c, hreach H C D -> In old C ->
  exists H1, pre_realloc H (c_base old) = Ok H1 /\ do_free H (c_base old) = Ok H1 /\
    (may_alloc a nb biggest (h_fo H1) (without old C) (if large old then c_base old :: D else D) c ->
     (c_base c = c_base old -> large c = true -> c_usable old <= modified) ->
     exists H2, post_realloc H1 (c_base old) modified (c_usable old) (c_req c) (c_base c) (c_usable c) = Ok (H2, c_end c - 8) /\
       do_alloc H1 (c_base c) (c_req c) (c_usable c) = Ok (H2, c_end c - 8) /\
       hreach H2 (c :: without old C) (if large old then c_base old :: D else D)).
Proof.
  intros H C D old modified c HH Io. assert (I := hreach_inv _ _ _ HH). destruct (free_inv H C D old I Io) as (H1 & E1 & E2 & I1 & Rm).
  exists H1. split; [exact E2|]. split; [exact E1|]. intros MA NT.
  destruct (chunk_arena H C D old I Io) as (n & v & A & Hc & X).
  assert (Ar : exists n v, arena (h_fo H1) n v /\ a_begin v <= c_base old < a_end v).
  { exists n, v. split; [|exact X]. split; [|apply A]. unfold removed in Rm. destruct (large old); [|rewrite Rm; apply A].
    destruct Rm as (p & w & DD & (S1 & S2 & S3 & S4 & S5) & Sub & VW). rewrite VW. destruct (existsb (Nat.eqb n) DD) eqn:Y; [|apply A]. exfalso.
    apply existsb_exists in Y. destruct Y as (q & Y & Z0). apply Nat.eqb_eq in Z0. subst q. apply Sub in Y. destruct Y as [_ Y].
    destruct (vf_anc _ _ _ _ _ _ _ (hi_R _ _ _ _ _ _ _ _ _ _ I) p n w v S1 (proj1 A) Y). destruct (hi_ck _ _ _ _ _ _ _ _ _ _ I old Io) as [[_ o2 o3 _] _].
    destruct Hc as [Hc1 Hc2]. unfold c_end in Hc2. lia. }
  destruct (post_inv H1 _ _ (c_base old) modified (c_usable old) c I1 MA Ar NT) as (H2 & s2 & n2 & P1 & _).
  destruct (alloc_inv H1 _ _ c I1 MA) as (H3 & s3 & n3 & Q1 & _).
  assert (H3 = H2).
  { unfold Heap_model.post_realloc in P1. destruct Ar as (m & w & Am & Xm).
    destruct (ensure_known nb biggest dbg al cur_ max_ a H1 _ _ m w (c_base old) I1 Am Xm) as [G1 G2]. rewrite G2 in P1. cbn [bind] in P1.
    assert (Nz : (c_base c =? 0) = false) by (destruct MA as [_ _ _ (m' & w' & V & [Hc1 _] & _ & Lo & _) _]; apply Z.eqb_neq; lia).
    rewrite Nz in P1. cbn [negb andb] in P1. destruct (hi_ar _ _ _ _ _ _ _ _ _ _ I1 m w Am) as (P0 & _).
    unfold Heap_model.do_alloc in Q1. destruct (Z.eqb_spec (c_base c) (c_base old)) as [Eo|Ne]; cbn [negb] in P1.
    - destruct (Nat.eqb_spec (a_subpriv w) 0); [congruence|]. rewrite Eo in Q1. rewrite G1 in Q1. cbn [bind] in Q1. rewrite ?Eo in P1.
      rewrite Q1 in P1. cbn [bind] in P1. destruct (find_from_root nb (h_fo H3) (c_base old) a false) as [b| | |] eqn:Fb; cbn [bind] in P1; try discriminate.
      destruct (_ && _) eqn:T; [|congruence]. exfalso. apply andb_prop in T. destruct T as [T T2]. cbn [andb] in T. apply Z.ltb_lt in T.
      destruct (Nat.eqb_spec b 0) as [|Nb]; [discriminate|].
      assert (I3 : HInv H3 (c :: without old C) (if large old then c_base old :: D else D)).
      { destruct (alloc_inv H1 _ _ c I1 MA) as (H4 & s4 & n4 & Q4 & I4 & _). unfold Heap_model.do_alloc in Q4. rewrite Eo, G1 in Q4. cbn [bind] in Q4. rewrite Q1 in Q4. injection Q4 as <-. exact I4. }
      destruct (big_find_by_allocator _ _ _ _ _ _ (h_fo H3) (c_base old) a false (hi_R _ _ _ _ _ _ _ _ _ _ I3)) as (b' & Eb & [[-> _]|O]); [rewrite Fb in Eb; injection Eb; congruence|].
      rewrite Fb in Eb. injection Eb as <-. destruct O as (Lb & Cb & Ab & _). destruct (in_live _ _ _ Lb Cb) as [V1 V2].
      destruct (hi_big _ _ _ _ _ _ _ _ _ _ I3 b _ V1 Ab) as (d & Id & Ld & (_ & _ & Bd & Ed & _)).
      destruct (hi_apart _ _ _ _ _ _ _ _ _ _ I3 c d (or_introl eq_refl) Id) as [<-|Q]; [specialize (NT Eo Ld); lia|].
      destruct (hi_ck _ _ _ _ _ _ _ _ _ _ I3 d Id) as [[_ d2 d3 _] _]. destruct (hi_ck _ _ _ _ _ _ _ _ _ _ I3 c (or_introl eq_refl)) as [[_ c2 c3 _] _].
      unfold apart, c_end in Q. lia.
    - rewrite Q1 in P1. cbn [bind] in P1. destruct (find_from_root nb (h_fo H3) (c_base old) a false) as [b| | |]; cbn [bind andb] in P1; congruence. }
  subst H3. exists H2. split; [exact P1|]. split; [exact Q1|]. exact (hr_alloc _ _ _ _ _ _ (hr_free _ _ _ _ _ HH Io E1) MA Q1).
Qed.

(* Full statement: an address in a live chunk's requested bytes is answered with the chunk's
   start, the size usable by the caller, and the address of its metadata word.  Missing: the
   size answered is eight bytes short (heap_size_refuted), and for addresses in the padding
   between the requested and the usable size the search may leave the bitmap
   (heap_padding_refuted). *)
Theorem heap_lookup_small_partial : forall H C D c x sizefn, hreach H C D -> In c C -> large c = false ->
  sizefn (c_base c) = c_usable c -> c_base c <= x < c_base c + c_req c ->
  query H sizefn x = Ok (H, Chunk (c_base c) ((c_usable c - 16) mod 2 ^ 64) (c_end c - 8)).
Proof.
  intros H C D c x sizefn HH Ic Sm Sz Hx. assert (I := hreach_inv _ _ _ HH).
  destruct (hi_ck _ _ _ _ _ _ _ _ _ _ I c Ic) as [Okc (n & v & A & Hc & Bt & Cov & SS & _)]. destruct (SS Sm) as [Kc Un].
  assert (Okc0 := Okc). destruct Okc as [K1 K2 K3 K4]. assert (Hc0 := Hc). destruct Hc as [Hc1 Hc2].
  assert (Ie : c_end c = c_base c + c_usable c) by reflexivity.
  destruct (idx_range nb biggest dbg al cur_ max_ a Ha Hbig H C D n v c I A Hc0 Okc0) as (G1 & G2 & G3 & G4 & G5).
  destruct (hi_ar _ _ _ _ _ _ _ _ _ _ I n v A) as (P0 & _ & IB & NW & Lo & Na & UP).
  unfold Heap_model.query. destruct (leaf_clear nb biggest dbg al cur_ max_ a Ha (h_fo H) n v x _ _ (hi_R _ _ _ _ _ _ _ _ _ _ I) (proj1 A) ltac:(lia) Kc ltac:(lia)) as [E _].
  rewrite E. cbn [bind]. destruct (view_inv _ _ _ (proj1 A)) as [[N0 _] Ev]. destruct (Nat.eqb_spec n 0) as [|_]; [congruence|].
  assert (Es : b_sub (bigs (h_fo H) n) = a) by (rewrite <- (proj2 A), Ev; reflexivity).
  assert (Ea : b_alloc (bigs (h_fo H) n) = a_alloc v) by (rewrite Ev; reflexivity).
  rewrite Es. destruct (Nat.eqb_spec a 0) as [|_]; [congruence|]. rewrite Nat.eqb_refl.
  unfold get_info. rewrite Ea. destruct (Nat.eqb_spec n 0) as [|_]; [congruence|]. destruct (Nat.eqb_spec (a_alloc v) a); [congruence|]. cbn [negb andb].
  destruct (ensure_known nb biggest dbg al cur_ max_ a H C D n v x I A ltac:(lia)) as [_ E2]. rewrite E2. cbn [bind].
  destruct (Nat.eqb_spec (a_subpriv v) 0) as [|_]; [congruence|]. fold (finfo H v).
  rewrite (via_some dbg (finfo H v) x sizefn (c_base c)).
  - cbn [bind]. rewrite Sz. f_equal. f_equal. unfold insert_for_chunk, insert_at, caller_usable, INSERT_SIZE.
    rewrite (w64_id (c_usable c - 8)) by lia. rewrite (w64_id (c_base c + (c_usable c - 8))) by lia. f_equal; [unfold w64; f_equal; lia|lia].
  - exact G3.
  - exact G4.
  - exact K1.
  - lia.
  - lia.
  - lia.
  - lia.
  - lia.
  - lia.
  - rewrite IB. destruct (rdown_span (a_begin v)). lia.
  - lia.
  - exact Bt.
  - intros k Hk. destruct (i_bits (finfo H v) k) eqn:Bk; [|reflexivity]. exfalso.
    set (f := finfo H v) in *. set (k0 := (c_base c - i_base f) / 16) in *.
    assert (Kx : i_base f + 16 * k <= x) by (clear - Hk; lia).
    assert (Kb : c_base c < i_base f + 16 * k) by (clear - Hk G2; lia).
    destruct (hi_bits _ _ _ _ _ _ _ _ _ _ I n v k A) as [(d & Id & Hd & Ed)|Id]; [fold f; unfold NBITS, SPAN in *; lia|exact Bk| |]; [fold f in Ed|fold f in Id].
    + destruct (hi_apart _ _ _ _ _ _ _ _ _ _ I c d Ic Id) as [<-|Q]; [lia|]. destruct (hi_ck _ _ _ _ _ _ _ _ _ _ I d Id) as [[_ d2 d3 _] _].
      unfold apart, c_end in *. lia.
    + destruct (hi_stale _ _ _ _ _ _ _ _ _ _ I c _ Ic Sm Id); lia.
Qed.

(* Full statement: as above for large chunks.  The start and size are right; missing: the
   address of the metadata word is wrong unless the usable size is sixteen more than the
   requested one (heap_large_metadata_refuted). *)
Theorem heap_lookup_large_partial : forall H C D c x sizefn, hreach H C D -> In c C -> large c = true ->
  c_base c <= x < c_base c + c_req c ->
  exists p w, stands (h_fo H) p w c /\
    (kids_clear (h_fo H) p x (x + 1) -> a_sub w = 0%nat ->
     query H sizefn x = Ok (H, Chunk (c_base c) (c_req c) ((c_base c + c_req c + 8) mod 2 ^ 64))).
Proof.
  intros H C D c x sizefn HH Ic Lg Hx. assert (I := hreach_inv _ _ _ HH).
  destruct (hi_ck _ _ _ _ _ _ _ _ _ _ I c Ic) as [_ (n & v & _ & _ & _ & _ & _ & LL)]. destruct (LL Lg) as (p & w & Sp). exists p, w. split; [exact Sp|].
  intros Kc S0. destruct Sp as (S1 & S2 & S3 & S4 & S5).
  destruct (leaf_clear nb biggest dbg al cur_ max_ a Ha (h_fo H) p w x _ _ (hi_R _ _ _ _ _ _ _ _ _ _ I) S1 ltac:(lia) Kc ltac:(lia)) as [E _].
  unfold Heap_model.query. rewrite E. cbn [bind]. destruct (view_inv _ _ _ S1) as [[N0 _] Ev]. destruct (Nat.eqb_spec p 0) as [|_]; [congruence|].
  assert (Es : b_sub (bigs (h_fo H) p) = 0%nat) by (rewrite <- S0, Ev; reflexivity).
  assert (Ea : b_alloc (bigs (h_fo H) p) = a) by (rewrite <- S2, Ev; reflexivity). rewrite Es, Ea. cbn [Nat.eqb]. rewrite Nat.eqb_refl.
  unfold get_info. rewrite Ea, Nat.eqb_refl. destruct (Nat.eqb_spec p 0) as [|_]; [congruence|]. cbn [negb andb].
  assert (Eb : b_begin (bigs (h_fo H) p) = c_base c) by (rewrite <- S3, Ev; reflexivity).
  assert (Ee : b_end (bigs (h_fo H) p) = c_base c + c_req c) by (rewrite <- S4, Ev; reflexivity).
  rewrite Eb, Ee. replace (c_base c + c_req c - c_base c) with (c_req c) by lia. f_equal. f_equal. f_equal. unfold insert_at, w64, INSERT_SIZE. f_equal. lia.
Qed.

(* Full statement: an address in no live chunk is reported unindexed.  Missing: addresses after
   a live chunk or a freed large one in the same arena (heap_free_space_refuted). *)
Theorem heap_lookup_unindexed_partial : forall H C D n v c x sizefn, hreach H C D -> arena (h_fo H) n v ->
  kids_clear (h_fo H) n x (x + 1) -> In c C -> holds v c -> a_begin v <= x < c_base c ->
  (forall d, In d C -> x < c_base d) -> (forall d, In d D -> x < d) ->
  query H sizefn x = Ok (H, Unindexed).
Proof.
  intros H C D n v c x sizefn HH A Kc Ic Hc Hx NC ND. assert (I := hreach_inv _ _ _ HH).
  destruct (hi_ck _ _ _ _ _ _ _ _ _ _ I c Ic) as [Okc (n2 & v2 & A2 & Hc2 & Bt & Cov & _)].
  assert (Okc0 := Okc). destruct Okc as [K1 K2 K3 K4]. assert (Hc0 := Hc). destruct Hc as [Hc1 Hc3]. assert (Ie : c_end c = c_base c + c_usable c) by reflexivity.
  assert (n2 = n) by (destruct Hc2; apply (hi_one _ _ _ _ _ _ _ _ _ _ I n2 n v2 v (c_base c) A2 A); lia). subst n2.
  assert (v2 = v) by (destruct A as [X _], A2 as [Y _]; congruence). subst v2.
  destruct (idx_range nb biggest dbg al cur_ max_ a Ha Hbig H C D n v c I A Hc0 Okc0) as (G1 & G2 & G3 & G4 & G5).
  destruct (hi_ar _ _ _ _ _ _ _ _ _ _ I n v A) as (P0 & _ & IB & NW & Lo & Na & UP).
  unfold Heap_model.query. destruct (leaf_clear nb biggest dbg al cur_ max_ a Ha (h_fo H) n v x _ _ (hi_R _ _ _ _ _ _ _ _ _ _ I) (proj1 A) ltac:(lia) Kc ltac:(lia)) as [E _].
  rewrite E. cbn [bind]. destruct (view_inv _ _ _ (proj1 A)) as [[N0 _] Ev]. destruct (Nat.eqb_spec n 0) as [|_]; [congruence|].
  assert (Es : b_sub (bigs (h_fo H) n) = a) by (rewrite <- (proj2 A), Ev; reflexivity).
  assert (Ea : b_alloc (bigs (h_fo H) n) = a_alloc v) by (rewrite Ev; reflexivity).
  rewrite Es. destruct (Nat.eqb_spec a 0) as [|_]; [congruence|]. rewrite Nat.eqb_refl.
  unfold get_info. rewrite Ea. destruct (Nat.eqb_spec n 0) as [|_]; [congruence|]. destruct (Nat.eqb_spec (a_alloc v) a); [congruence|]. cbn [negb andb].
  destruct (ensure_known nb biggest dbg al cur_ max_ a H C D n v x I A ltac:(lia)) as [_ E2]. rewrite E2. cbn [bind].
  destruct (Nat.eqb_spec (a_subpriv v) 0) as [|_]; [congruence|]. fold (finfo H v). destruct (rdown_span (a_begin v)) as [D1 D2]. rewrite <- IB in D1.
  rewrite (via_none dbg (finfo H v) x sizefn); [reflexivity|exact G3|lia|lia|lia|lia|lia|lia|lia|].
  intros k Hk. destruct (i_bits (finfo H v) k) eqn:Bk; [|reflexivity]. exfalso. set (f := finfo H v) in *.
  assert (Kx : i_base f + 16 * k <= x) by (clear - Hk; lia).
  destruct (hi_bits _ _ _ _ _ _ _ _ _ _ I n v k A) as [(d & Id & Hd & Ed)|Id]; [fold f; unfold NBITS, SPAN in *; lia|exact Bk| |]; [fold f in Ed|fold f in Id].
  - specialize (NC d Id). lia.
  - specialize (ND _ Id). lia.
Qed.

(* whatever is asked, asking changes nothing *)
Theorem heap_query_pure : forall H C D x sizefn H' r, hreach H C D -> query H sizefn x = Ok (H', r) -> H' = H.
Proof.
  intros H C D x sizefn H' r HH E. assert (I := hreach_inv _ _ _ HH). unfold Heap_model.query in E.
  destruct (big_leaf_lookup_innermost _ _ _ _ _ _ (h_fo H) x (hi_R _ _ _ _ _ _ _ _ _ _ I)) as (n & En & LA). rewrite En in E. cbn [bind] in E.
  unfold lookup_answer in LA. destruct (Nat.eqb_spec n 0) as [|N0]; [congruence|]. destruct LA as (Ln & Cn & _). destruct (in_live _ _ _ Ln Cn) as [Vn Xn].
  destruct (Nat.eqb _ a) eqn:Ea; [|congruence]. apply Nat.eqb_eq in Ea. unfold get_info in E.
  destruct (Nat.eqb_spec n 0) as [|_]; [congruence|]. cbn [negb andb] in E. destruct (Nat.eqb_spec (b_alloc (bigs (h_fo H) n)) a) as [|Na]; [congruence|].
  destruct (Nat.eqb_spec (b_sub (bigs (h_fo H) n)) 0) as [S0|S0]; [congruence|].
  destruct (ensure_known nb biggest dbg al cur_ max_ a H C D n _ x I (conj Vn Ea) Xn) as [_ E2]. rewrite E2 in E. cbn [bind] in E.
  destruct (Nat.eqb _ 0); [congruence|]. destruct (via_bitmap _ _ _ _) as [[[[o sz] m]|]| | |]; cbn [bind] in E; congruence.
Qed.
End P.
