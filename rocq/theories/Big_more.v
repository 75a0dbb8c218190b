(* Creation under the code's own choice of parent; consequences of reachability. *)
From Verif Require Import Base Big_model Big_set Big_spec Big_inv Big_lookup Big_links Big_field Big_create
  Big_delete Big_resize Big_preext Big_stack Big_split Big_range Big_common Big_adopt Big_hist.

(* m overlaps [lo,hi) without containing it *)
Definition cuts (s : st) (m : nat) (lo hi : Z) : Prop := live s m /\ covers s m lo /\ ~ covers s m (hi - 1) \/ live s m /\ ~ covers s m lo /\ covers s m (hi - 1).
(* m lies strictly inside [lo,hi) *)
Definition swallowed (s : st) (m : nat) (lo hi : Z) : Prop := live s m /\ lo < b_begin (bigs s m) /\ b_end (bigs s m) < hi.

Section More.
Variables (nb : nat) (biggest : Z) (dbg : bool).

Lemma covers_dec s m a : covers s m a \/ ~ covers s m a.
Proof. unfold covers. lia. Qed.

Lemma create_choose s K rk ptr size pr a : Inv nb s K rk -> has_free nb s -> 0 < ptr -> 0 < size ->
  (forall m, ~ swallowed s m ptr (ptr + size)) ->
  (exists s' n p K' rk', new_bigalloc nb biggest dbg s ptr size pr 0 a = Ok (s', n) /\ Inv nb s' K' rk' /\
     n <> 0%nat /\ view s n = None /\ lookup_answer s ptr p /\ lookup_answer s (ptr + size - 1) p /\
     (forall m, ~ cuts s m ptr (ptr + size)) /\
     (forall m, view s' m = if Nat.eqb m n then Some (mkAttrs ptr (ptr + size) p a 0 pr 0) else view s m) /\
     start s' = start s /\ log s' = log s) \/
  (new_bigalloc nb biggest dbg s ptr size pr 0 a = Abort /\
     (biggest < size \/ (exists m, cuts s m ptr (ptr + size)) \/
      (forall m, live s m -> ~ covers s m ptr) /\ (ptr mod PAGE <> 0 \/ (ptr + size) mod PAGE <> 0))).
Proof.
  intros HI Hfree Hp Hs Hin. set (hi := ptr + size) in *.
  destruct (Z.ltb_spec biggest size) as [Hb|Hb].
  { right. unfold new_bigalloc. rewrite (proj2 (Z.ltb_lt _ _) Hb). auto. }
  destruct (find_deepest_correct _ _ _ _ HI ptr) as (d1 & F1 & A1).
  destruct (find_deepest_correct _ _ _ _ HI (hi - 1)) as (d2 & F2 & A2).
  pose proof A1 as B1. pose proof A2 as B2. unfold lookup_answer in B1, B2.
  destruct (Nat.eq_dec d1 d2) as [E|E].
  2:{ right. split.
      - unfold new_bigalloc. rewrite (proj2 (Z.ltb_ge _ _) Hb). cbn [Nat.eqb negb]. rewrite F1. fold hi. rewrite F2. cbn [bind].
        destruct (Nat.eqb_spec d1 d2); [congruence|]. reflexivity.
      - right. left. destruct (Nat.eqb_spec d1 0) as [E1|E1]; destruct (Nat.eqb_spec d2 0) as [E2|E2]; [congruence| | |].
        + exists d2. right. destruct B2 as (L & C & _). split; auto.
        + exists d1. left. destruct B1 as (L & C & _). split; auto.
        + destruct B1 as (L1 & C1 & M1). destruct B2 as (L2 & C2 & M2).
          destruct (covers_dec s d1 (hi - 1)) as [X|X]; [|exists d1; left; auto].
          destruct (covers_dec s d2 ptr) as [Y|Y]; [|exists d2; right; auto].
          exfalso. apply E. apply (anc_antisym _ _ _ _ HI); auto. }
  subst d2. 
  assert (Hnocut : forall m, ~ cuts s m ptr hi).
  { intros m [(L & C1 & C2)|(L & C1 & C2)]; destruct (Nat.eqb_spec d1 0) as [E1|E1].
    - apply (B1 m); auto.
    - apply C2. destruct B1 as (L1 & X & M1). apply (covers_anc _ _ _ _ HI m d1); auto. apply B2.
    - apply (B2 m); auto.
    - apply C1. destruct B2 as (L1 & X & M1). apply (covers_anc _ _ _ _ HI m d1); auto. apply B1. }
  assert (Hkids : forall c, live s c -> b_parent (bigs s c) = d1 -> b_end (bigs s c) <= ptr \/ hi <= b_begin (bigs s c)).
  { intros c Lc Hc. destruct (Z.le_gt_cases (b_end (bigs s c)) ptr); auto. destruct (Z.le_gt_cases hi (b_begin (bigs s c))); auto.
    exfalso. pose proof (I_geo _ _ _ _ HI _ Lc) as Hg.
    assert (Hcase : covers s c ptr \/ covers s c (hi - 1)).
    { destruct (Z.le_gt_cases (b_begin (bigs s c)) ptr); [left; unfold covers; lia|].
      destruct (Z.le_gt_cases hi (b_end (bigs s c))); [right; unfold covers; lia|]. exfalso. apply (Hin c). unfold swallowed. split; [auto|lia]. }
    destruct (Nat.eqb_spec d1 0) as [E1|E1].
    - destruct Hcase as [X|X]; [apply (B1 c)|apply (B2 c)]; auto.
    - assert (Ha : anc s c d1) by (destruct Hcase as [X|X]; [apply B1|apply B2]; auto).
      pose proof (anc_rk_le _ _ _ _ _ _ HI Ha (proj1 B1)). assert (b_parent (bigs s c) <> 0%nat) by congruence.
      pose proof (I_rk _ _ _ _ HI c Lc H2). rewrite Hc in H3. lia. }
  destruct (Nat.eq_dec d1 0) as [E0|E0].
  - subst d1. cbn in B1, B2. 
    destruct (Z.eq_dec (ptr mod PAGE) 0) as [X|X]; [destruct (Z.eq_dec (hi mod PAGE) 0) as [Y|Y]|].
    + left. destruct (new_bigalloc_ok nb biggest dbg s K rk ptr size pr 0 a 0 HI Hfree Hb) as (s' & n & K' & rk' & R1 & R2 & R3 & R4 & R5 & R6).
      * split; [fold hi; lia|]. split; [cbn; auto|exact Hkids].
      * split; auto.
      * exists s', n, 0%nat, K', rk'. split; [exact R1|]. split; [exact R2|]. split; [auto|]. split; [auto|]. split; [auto|]. split; [auto|]. split; [auto|]. split; [auto|]. auto.
    + right. split; [|right; right; split; auto].
      unfold new_bigalloc. rewrite (proj2 (Z.ltb_ge _ _) Hb). cbn [Nat.eqb negb]. rewrite F1. fold hi. rewrite F2. cbn [bind Nat.eqb negb].
      destruct (Z.eqb_spec (RUP ptr) ptr) as [U|U]; [|exfalso; apply U, rup_aligned; auto]. cbn [negb].
      destruct (Z.eqb_spec (RUP hi) hi) as [V|V]; [exfalso; apply Y, rup_aligned; auto|]. reflexivity.
    + right. split; [|right; right; split; auto].
      unfold new_bigalloc. rewrite (proj2 (Z.ltb_ge _ _) Hb). cbn [Nat.eqb negb]. rewrite F1. fold hi. rewrite F2. cbn [bind Nat.eqb negb].
      destruct (Z.eqb_spec (RUP ptr) ptr) as [U|U]; [exfalso; apply X, rup_aligned; auto|]. reflexivity.
  - destruct (Nat.eqb_spec d1 0) as [|_]; [congruence|].
    left. destruct (new_bigalloc_ok nb biggest dbg s K rk ptr size pr 0 a d1 HI Hfree Hb) as (s' & n & K' & rk' & R1 & R2 & R3 & R4 & R5 & R6).
    * split; [fold hi; lia|]. split; [|exact Hkids]. destruct (Nat.eqb_spec d1 0); [congruence|].
      destruct B1 as (L & C & _). destruct B2 as (_ & C2 & _). unfold covers in *. fold hi. split; [auto|lia].
    * split; auto.
    * exists s', n, d1, K', rk'. split; [exact R1|]. split; [exact R2|]. split; [auto|]. split; [auto|]. split; [auto|]. split; [auto|]. split; [auto|]. split; [auto|]. auto.
Qed.

Lemma leaf_allocator_ok s K rk a : Inv nb s K rk ->
  exists n x, lookup_answer s a n /\ leaf_allocator nb s a = Ok x /\
   x = (if Nat.eqb n 0 then 0 else if Nat.eqb (b_sub (bigs s n)) 0 then b_alloc (bigs s n) else b_sub (bigs s n))%nat.
Proof.
  intro HI. destruct (leaf_bigalloc_correct _ _ _ _ HI a) as (n & E & A). exists n. unfold leaf_allocator. rewrite E. cbn [bind].
  destruct (Nat.eqb n 0); eexists; split; auto.
Qed.
End More.
