(* C71: lookups by allocator before system calls are seen. *)
From Verif Require Import Base Big_model Big_spec Big_inv Big_create Big_hist Big_lookup Big_props Map_model Map_spec Big_field Map_seq Map_state Map_hist Map_props Brk_model Brk_spec Brk_props Early_model.

Section P.
Variables (nb : nat) (biggest : Z) (dbg : bool) (al : nat -> Z) (lcur lmax : Z) (obj : Z -> Z).
Notation R := (reach nb biggest dbg al lcur lmax).
Notation mreach := (mreach nb biggest dbg al lcur lmax obj).

Lemma back_two s p : 0 <= p < W64 -> pidx s p = 0%nat ->
  back (S (S (Z.to_nat p))) s p p = Ok (if p =? 0 then 0 else p - 1).
Proof.
  clear. intros Hp H0. cbn [back]. rewrite H0. cbn [Nat.eqb]. destruct (Z.ltb_spec 0 p) as [L|L]; cbn [andb].
  - rewrite Z.sub_diag. change (MAX_BRK_PAGES <? 0 mod W64) with false. destruct (Z.eqb_spec p 0); [lia|].
    destruct ((0 <? p - 1) && Nat.eqb (pidx s (p - 1)) 0) eqn:E; [|reflexivity].
    replace (p - 1 - p) with (-1) by lia. change (MAX_BRK_PAGES <? (-1) mod W64) with true. reflexivity.
  - destruct (Z.eqb_spec p 0); [subst; reflexivity|lia].
Qed.

(* is the byte just before the page of addr in a heap segment? *)
Definition heap_before (s : st) (addr : Z) : Prop :=
  exists m, live s m /\ b_alloc (bigs s m) = BRK /\ b_begin (bigs s m) <= RDOWN addr - 1 < b_end (bigs s m).

(* Looking up an unindexed address early on: the record of the heap is brought up to date if
   and only if the heap, as recorded, reaches exactly to the start of the address's page.
   The 128 pages that the search may go back are never used. *)
Theorem early_exact : forall B kbrk caller addr x bysub, R (fo (bm B)) -> 0 <= addr < W64 ->
  live (fo (bm B)) 2 -> (forall m, live (fo (bm B)) m -> ~ covers (fo (bm B)) m addr) ->
  (heap_before (fo (bm B)) addr -> early_find nb biggest dbg B false kbrk caller addr x bysub =
     do B' <- notify_brk biggest dbg B kbrk caller ;
     if Nat.eqb (pidx (fo (bm B')) (PAGENUM addr)) 0 then Ok (B', 0%nat) else do n <- find_from_root nb (fo (bm B')) addr x bysub ; Ok (B', n)) /\
  (~ heap_before (fo (bm B)) addr -> early_find nb biggest dbg B false kbrk caller addr x bysub = Ok (B, 0%nat)).
Proof.
  clear obj. intros B kbrk caller addr x bysub HR Ha L2 Hno. set (s := fo (bm B)) in *.
  destruct (reach_good _ _ _ _ _ _ _ HR) as [(K & rk & HI) _].
  assert (E0 : pidx s (PAGENUM addr) = 0%nat).
  { destruct (Nat.eq_dec (pidx s (PAGENUM addr)) 0) as [|E]; auto. destruct (pix_covers _ _ _ _ HI addr E) as [L C]. exfalso. exact (Hno _ L C). }
  assert (Hp : 0 <= PAGENUM addr < W64).
  { clear - Ha. unfold PAGENUM, PAGE, W64 in *. Z.div_mod_to_equations. lia. }
  assert (B2 : (b_begin (bigs s 2) =? 0) = false).
  { apply Z.eqb_neq. destruct L2 as [_ U]. unfold in_use in U. intro Z0. rewrite Z0 in U. discriminate. }
  unfold early_find. fold s. rewrite E0. cbn [Nat.eqb negb orb]. rewrite B2. rewrite (back_two s _ Hp E0). cbn [bind].
  destruct (Z.eqb_spec (PAGENUM addr) 0) as [P0|P0].
  - rewrite <- P0, E0. cbn [Nat.eqb bind]. fold s. rewrite P0, <- P0, E0. cbn [Nat.eqb]. split; [|reflexivity]. intros (m & Lm & _ & C1 & _). exfalso.
    assert (0 < b_begin (bigs s m)) by (destruct (I_geo _ _ _ _ HI m Lm); lia).
    unfold RDOWN, PAGENUM in *. rewrite P0 in C1. lia.
  - replace (PAGE * (PAGENUM addr - 1) + (PAGE - 1)) with (RDOWN addr - 1) by (unfold RDOWN, PAGENUM; lia).
    assert (Eq : PAGENUM (RDOWN addr - 1) = PAGENUM addr - 1).
    { unfold RDOWN, PAGENUM, PAGE. replace (addr / 4096 * 4096 - 1) with ((addr / 4096 - 1) * 4096 + 4095) by lia. rewrite Z.div_add_l by lia. lia. }
    rewrite <- Eq.
    destruct (find_from_root_correct _ _ _ _ HI (RDOWN addr - 1) BRK false) as (n & F & D).
    destruct (Nat.eqb_spec (pidx s (PAGENUM (RDOWN addr - 1))) 0) as [Z0|Z0].
    + split; [|intros _; cbn [bind]; fold s; rewrite E0; reflexivity].
      intros (m & Lm & _ & C). exfalso. exact (pix_zero_none _ _ _ _ HI _ Z0 m Lm C).
    + rewrite F. cbn [bind]. destruct D as [[-> D]|(Ln & Cn & An & _)].
      * cbn [Nat.eqb bind]. fold s. rewrite E0. cbn [Nat.eqb]. split; [|reflexivity]. intros (m & Lm & Am & C). exfalso. exact (D m Lm C Am).
      * destruct (Nat.eqb_spec n 0) as [->|_]; [exfalso; exact (proj1 Ln eq_refl)|]. split; [reflexivity|].
        intro H. exfalso. apply H. exists n. split; [exact Ln|]. split; [exact An|exact Cn].
Qed.

(* When the recorded heap ends at a page boundary and the C library has since moved the break
   to k, an early lookup of any address in the first page of the new part finds the heap, and
   leaves the records exactly as a notification of k would.
   Full statement: any address in the new part within 128 pages is found, wherever the break
   was.  Missing: false beyond the first page and for a break within a page
   (early_second_page_refuted, early_mid_page_refuted). *)
Theorem early_found_partial : forall B M v w k caller addr, mreach (bm B) M -> b_init B = true ->
  heap (bm B) (b_map B) (b_brk B) v w -> may_move biggest (bm B) (b_map B) (b_brk B) v w (b_cur B) k ->
  live (fo (bm B)) 2 -> a_end w = a_end v -> 0 <= addr < W64 -> a_end v <= addr < k -> addr < a_end v + PAGE ->
  exists T', early_find nb biggest dbg B false k caller addr BRK false = Ok (mkB T' (b_cur B) (b_map B) (b_brk B) true caller, b_brk B) /\
    notify_brk biggest dbg B k caller = Ok (mkB T' (b_cur B) (b_map B) (b_brk B) true caller) /\
    heap_moved (bm B) T' (b_map B) (b_brk B) v w (RUP k) k.
Proof.
  intros B M v w k caller addr HM IN HP MV L2 Eq Ha Hk Hpg.
  destruct (heap_facts _ _ _ _ _ _ _ _ _ _ _ _ _ HM HP) as (N0 & NM & Pv & B0 & B1 & B2 & B3 & A1 & A2).
  destruct (brk_move_exact_partial _ _ _ _ _ _ _ B M v w k caller HM IN HP MV) as (T' & M' & E & HM' & _ & HP' & HV).
  exists T'. split; [|split; [exact E|exact HV]].
  assert (HR := mreach_R _ _ _ _ _ _ _ _ _ HM). assert (HR' := mreach_R _ _ _ _ _ _ _ _ _ HM').
  destruct (reach_good _ _ _ _ _ _ _ HR) as [(K & rk & HI) _]. destruct (reach_good _ _ _ _ _ _ _ HR') as [(K' & rk' & HI') _].
  assert (RK : k <= RUP k) by (clear; unfold RUP, rup, PAGE; lia).
  assert (Hno : forall m, live (fo (bm B)) m -> ~ covers (fo (bm B)) m addr).
  { intros m Lm C. apply (ht_clear _ _ _ _ _ _ _ _ MV m Lm). exists addr. split; [lia|exact C]. }
  assert (Ed : RDOWN addr = a_end v).
  { clear - A2 Hk Hpg. unfold aligned, RDOWN, rdown, PAGE in *. Z.div_mod_to_equations. lia. }
  destruct (view_inv _ _ _ (hp_brk _ _ _ _ _ HP)) as [Lb Eb].
  assert (HB : heap_before (fo (bm B)) addr).
  { exists (b_brk B). split; [exact Lb|]. assert (Z1 := hp_bal _ _ _ _ _ HP). rewrite Eb in *. cbn in *. split; [exact Z1|]. lia. }
  rewrite (proj1 (early_exact B k caller addr BRK false HR Ha L2 Hno) HB), E. cbn [bind bm].
  destruct (view_inv _ _ _ (hp_brk _ _ _ _ _ HP')) as [Lb' Eb'].
  assert (CB : covers (fo T') (b_brk B) addr).
  { assert (Z1 : b_begin (bigs (fo T') (b_brk B)) = a_begin w /\ b_end (bigs (fo T') (b_brk B)) = k) by (unfold with_end, attrs_of in Eb'; injection Eb' as X1 X2; auto).
    unfold covers. lia. }
  destruct (Nat.eqb_spec (pidx (fo T') (PAGENUM addr)) 0) as [Z0|_]; [exfalso; exact (pix_zero_none _ _ _ _ HI' _ Z0 _ Lb' CB)|].
  destruct (find_from_root_correct _ _ _ _ HI' addr BRK false) as (n & F & D). rewrite F. cbn [bind].
  assert (AB : b_alloc (bigs (fo T') (b_brk B)) = BRK) by (assert (Z1 := hp_bal _ _ _ _ _ HP'); rewrite Eb' in Z1; exact Z1).
  destruct D as [[_ D]|(Ln & Cn & An & _)]; [exfalso; exact (D _ Lb' CB AB)|]. f_equal. f_equal.
  assert (Vn := HV n). rewrite (live_as _ _ Ln) in Vn. destruct (Nat.eqb_spec n (b_map B)) as [->|].
  - exfalso. assert (Z1 := hp_mal _ _ _ _ _ HP). cbn in An. assert (X := f_equal (option_map a_alloc) Vn). cbn in X. unfold BRK, MMAP in *. congruence.
  - destruct (Nat.eqb_spec n (b_brk B)) as [->|]; [reflexivity|]. exfalso. symmetry in Vn. apply view_inv in Vn. destruct Vn as [Lo Eo].
    apply (Hno n Lo). unfold covers in *. unfold attrs_of in Eo. injection Eo as X1 X2. lia.
Qed.

(* Once system calls are seen, or for an indexed address, the search is not made. *)
Theorem early_plain : forall B trapped kbrk caller addr x bysub, R (fo (bm B)) ->
  trapped = true \/ (exists m, live (fo (bm B)) m /\ covers (fo (bm B)) m addr) ->
  exists n, early_find nb biggest dbg B trapped kbrk caller addr x bysub = Ok (B, n) /\ find_from_root nb (fo (bm B)) addr x bysub = Ok n.
Proof.
  clear obj. intros B trapped kbrk caller addr x bysub HR H. destruct (reach_good _ _ _ _ _ _ _ HR) as [(K & rk & HI) _].
  destruct (find_from_root_correct _ _ _ _ HI addr x bysub) as (n & F & _). exists n. split; [|exact F].
  unfold early_find. assert (X : negb (Nat.eqb (pidx (fo (bm B)) (PAGENUM addr)) 0) || trapped = true).
  { destruct H as [-> |(m & Lm & C)]; [apply Bool.orb_true_r|]. destruct (Nat.eqb_spec (pidx (fo (bm B)) (PAGENUM addr)) 0) as [Z0|_]; [|reflexivity].
    exfalso. exact (pix_zero_none _ _ _ _ HI _ Z0 m Lm C). }
  rewrite X, F. reflexivity.
Qed.
End P.
Print Assumptions early_exact.
Print Assumptions early_found_partial.
Print Assumptions early_plain.
