(* Big allocations (C01-C08, C41, C42): the theorems, each with a concrete case. *)
From Verif Require Import Base Big_model Big_set Big_spec Big_inv Big_lookup Big_links Big_field Big_create
  Big_delete Big_resize Big_preext Big_stack Big_split Big_range Big_common Big_adopt Big_hist Big_more.

(* ------------------------------------------------------------ concrete history *)
Module Ex.
  Definition NB : nat := 10.
  Definition BIG : Z := 2 ^ 20.
  Definition al (a : nat) : Z := match a with 1%nat => 4096 | 2%nat => 1 | 3%nat => 4096 | _ => 0 end.
  Definition stp s o := match step NB BIG true al (-1) (-1) s o with Ok s' => s' | _ => s end.
  Definition s0 := init_st 1048576 1114112 1 90.                     (* START = record 1 *)
  Definition s1 := stp s0 (New 2097152 131072 91 0 1).               (* mapping, record 2: 0x200000-0x220000 *)
  Definition s2 := stp s1 (New 2097408 65536 92 0 2).                (* record 3 in 2: 0x200100-0x210100 *)
  Definition s3 := stp s2 (New 2101248 8192 0 3 3).                  (* record 4 in 3: 0x201000-0x203000 *)
  Definition s4 := stp s3 (New 2166784 4096 0 0 2).                  (* record 5 in 2: 0x211000-0x212000 *)
  Definition s5 := stp s4 (SetSub 5 4 93).
  Definition s6 := stp s5 (New 4194304 65536 0 0 1).                 (* mapping, record 6: 0x400000-0x410000 *)
  Notation R := (reach NB BIG true al (-1) (-1)).

  Lemma bound s c : R s -> live s c -> (c < 10)%nat.
  Proof. intros H L. destruct (reach_good _ _ _ _ _ _ _ H) as [(K & rk & HI) _]. exact (I_bnd _ _ _ _ HI c L). Qed.
  Lemma look s a r : R s -> find_deepest NB s a = Ok r -> lookup_answer s a r.
  Proof.
    intros H E. destruct (reach_good _ _ _ _ _ _ _ H) as [(K & rk & HI) _].
    destruct (find_deepest_correct _ _ _ _ HI a) as (r' & E' & A). rewrite E in E'. injection E'; intros ->. exact A.
  Qed.

  Ltac dec := first [ apply Z.leb_le; vm_compute; reflexivity | apply Z.ltb_lt; vm_compute; reflexivity | apply Z.eqb_eq; vm_compute; reflexivity ].
  Ltac isl := split; [discriminate|vm_compute; reflexivity].
  Ltac en n c tac := lazymatch n with O => exfalso; lia | S ?m => destruct c as [|c]; [tac | en m c tac] end.
  Ltac kids HR := let c := fresh "c" in let Hc := fresh "Hc" in let Hp := fresh "Hp" in let Hb := fresh "Hb" in
    intros c Hc Hp; pose proof (bound _ c HR Hc) as Hb;
    let n := eval compute in 10%nat in
    en n c ltac:(first [ exfalso; exact (proj1 Hc eq_refl)
                       | exfalso; apply proj2 in Hc; vm_compute in Hc; discriminate Hc
                       | exfalso; vm_compute in Hp; discriminate Hp
                       | left; dec | right; dec ]).
  Lemma is_step s o : match step NB BIG true al (-1) (-1) s o with Ok _ => true | _ => false end = true ->
    step NB BIG true al (-1) (-1) s o = Ok (stp s o).
  Proof. unfold stp. destruct (step NB BIG true al (-1) (-1) s o); intro H; [reflexivity|discriminate..]. Qed.
  Ltac runs := apply is_step; vm_compute; reflexivity.
  Definition get {A} (d : A) (r : res A) : A := match r with Ok a => a | _ => d end.
  Lemma is_ok {A} (d : A) (r : res A) : match r with Ok _ => true | _ => false end = true -> r = Ok (get d r).
  Proof. destruct r; intro H; [reflexivity|discriminate..]. Qed.
  Ltac free k := exists k; split; [unfold NB; lia|vm_compute; reflexivity].

  Lemma r0 : R s0.
  Proof. apply reach_init; [unfold NB; lia|lia|unfold BIG; lia|reflexivity|reflexivity]. Qed.
  Lemma r1 : R s1.
  Proof.
    apply (reach_step _ _ _ _ _ _ s0 (New 2097152 131072 91 0 1)); [exact r0| |runs].
    cbn [legal]. split; [free 2%nat|]. split; [unfold BIG; lia|]. exists 0%nat. split.
    - split; [lia|]. split; [cbn; split; reflexivity|]. kids r0.
    - split; apply look; try apply r0; vm_compute; reflexivity.
  Qed.
  Lemma r2 : R s2.
  Proof.
    apply (reach_step _ _ _ _ _ _ s1 (New 2097408 65536 92 0 2)); [exact r1| |runs].
    cbn [legal]. split; [free 3%nat|]. split; [unfold BIG; lia|]. exists 2%nat. split.
    - split; [lia|]. split; [cbn [Nat.eqb]; split; [isl|split; dec]|]. kids r1.
    - split; apply look; try apply r1; vm_compute; reflexivity.
  Qed.
  Lemma r3 : R s3.
  Proof.
    apply (reach_step _ _ _ _ _ _ s2 (New 2101248 8192 0 3 3)); [exact r2| |runs].
    cbn [legal]. split; [free 4%nat|]. split; [unfold BIG; lia|]. exists 3%nat. split.
    - split; [lia|]. split; [cbn [Nat.eqb]; split; [isl|split; dec]|]. kids r2.
    - reflexivity.
  Qed.
  Lemma r4 : R s4.
  Proof.
    apply (reach_step _ _ _ _ _ _ s3 (New 2166784 4096 0 0 2)); [exact r3| |runs].
    cbn [legal]. split; [free 5%nat|]. split; [unfold BIG; lia|]. exists 2%nat. split.
    - split; [lia|]. split; [cbn [Nat.eqb]; split; [isl|split; dec]|]. kids r3.
    - split; apply look; try apply r3; vm_compute; reflexivity.
  Qed.
  Lemma r5 : R s5.
  Proof. apply (reach_step _ _ _ _ _ _ s4 (SetSub 5 4 93)); [exact r4| |runs]. cbn [legal]. isl. Qed.
  Lemma r6 : R s6.
  Proof.
    apply (reach_step _ _ _ _ _ _ s5 (New 4194304 65536 0 0 1)); [exact r5| |runs].
    cbn [legal]. split; [free 6%nat|]. split; [unfold BIG; lia|]. exists 0%nat. split.
    - split; [lia|]. split; [cbn; split; reflexivity|]. kids r5.
    - split; apply look; try apply r5; vm_compute; reflexivity.
  Qed.
End Ex.

Section Props.
Variables (nb : nat) (biggest : Z) (dbg : bool) (al : nat -> Z) (cur max : Z).
Notation R := (reach nb biggest dbg al cur max).
Notation run1 := (step nb biggest dbg al cur max).

(* ---------------------------------------------------------------- C02 *)
Theorem big_forest_always : forall s, R s -> forest s /\ links_ok s.
Proof. intros s H. destruct (reach_good _ _ _ _ _ _ _ H) as [(K & rk & HI) _]. exact (Inv_forest _ al _ _ _ HI). Qed.

(* every call respecting its contract returns (no abort, no failed assertion, no undefined behaviour) *)
Theorem big_calls_succeed : forall s o, R s -> legal nb biggest al s o -> exists s', run1 s o = Ok s' /\ R s'.
Proof.
  intros s o H L. destruct (step_good nb biggest dbg al cur max s o (reach_good _ _ _ _ _ _ _ H) L) as (s' & E & _).
  exists s'. split; [exact E|]. exact (reach_step _ _ _ _ _ _ _ _ _ H L E).
Qed.

(* ---------------------------------------------------------------- C01 *)
Theorem big_lookup_innermost : forall s a, R s ->
  exists r, find_deepest nb s a = Ok r /\ lookup_answer s a r.
Proof. intros s a H. destruct (reach_good _ _ _ _ _ _ _ H) as [(K & rk & HI) _]. exact (find_deepest_correct _ _ _ _ HI a). Qed.

Theorem big_leaf_lookup_innermost : forall s a, R s ->
  exists r, leaf_bigalloc nb s a = Ok r /\ lookup_answer s a r.
Proof. intros s a H. destruct (reach_good _ _ _ _ _ _ _ H) as [(K & rk & HI) _]. exact (leaf_bigalloc_correct _ _ _ _ HI a). Qed.

Theorem big_lookup_unique : forall s a r1 r2, R s -> lookup_answer s a r1 -> lookup_answer s a r2 -> r1 = r2.
Proof. intros s a r1 r2 H. destruct (reach_good _ _ _ _ _ _ _ H) as [(K & rk & HI) _]. exact (lookup_answer_unique _ _ _ _ HI a r1 r2). Qed.

Theorem big_leaf_allocator : forall s a, R s ->
  exists n x, lookup_answer s a n /\ leaf_allocator nb s a = Ok x /\
   x = (if Nat.eqb n 0 then 0 else if Nat.eqb (b_sub (bigs s n)) 0 then b_alloc (bigs s n) else b_sub (bigs s n))%nat.
Proof. intros s a H. destruct (reach_good _ _ _ _ _ _ _ H) as [(K & rk & HI) _]. exact (leaf_allocator_ok _ _ _ _ a HI). Qed.

Theorem big_find_by_allocator : forall s x a bysub, R s ->
  exists n, find_from_root nb s x a bysub = Ok n /\
   ((n = 0%nat /\ forall m, live s m -> covers s m x -> ~ has_alloc s bysub m a) \/ outermost s bysub x a n).
Proof. intros s x a b H. destruct (reach_good _ _ _ _ _ _ _ H) as [(K & rk & HI) _]. exact (find_from_root_correct _ _ _ _ HI x a b). Qed.

Theorem big_top_level_lookup : forall s x, R s ->
  exists r, lookup_top_level nb s x = Ok r /\
    ((r = 0%nat /\ forall m, live s m -> ~ covers s m x) \/ (live s r /\ b_parent (bigs s r) = 0%nat /\ covers s r x)).
Proof. intros s x H. destruct (reach_good _ _ _ _ _ _ _ H) as [(K & rk & HI) _]. exact (lookup_top_level_correct _ _ _ _ HI x). Qed.

(* ---------------------------------------------------------------- C03 *)
Theorem big_delete_exact : forall s n, R s -> live s n -> ~ anc s n (start s) ->
  exists s' D, bigalloc_del nb biggest dbg s n = Ok s' /\ R s' /\ subtree s n D /\ gone s s' D.
Proof.
  intros s n H L Ha. destruct (reach_good _ _ _ _ _ _ _ H) as [(K & rk & HI) HW].
  destruct (bigalloc_del_ok nb biggest dbg s K rk n HI L Ha (HW n L)) as (s' & K' & D & E & _ & A & B).
  exists s', D. split; [exact E|]. split; [|auto]. exact (reach_step _ _ _ _ _ _ s (Del n) s' H (conj L Ha) E).
Qed.

(* what is found at an address after a deletion is what remained of it *)
Theorem big_delete_lookup : forall s n s' a r, R s -> live s n -> ~ anc s n (start s) ->
  bigalloc_del nb biggest dbg s n = Ok s' -> find_deepest nb s' a = Ok r -> r <> 0%nat ->
  live s r /\ covers s r a /\ ~ anc s n r.
Proof.
  intros s n s' a r H L Ha E F Hr. destruct (big_delete_exact s n H L Ha) as (s2 & D & E2 & H2 & HD & HG).
  rewrite E in E2. injection E2; intro; subst s2. destruct (big_lookup_innermost s' a H2) as (r' & F' & A). rewrite F in F'. injection F'; intro; subst r'.
  unfold lookup_answer in A. destruct (Nat.eqb_spec r 0); [congruence|]. destruct A as (Lr & C & _).
  pose proof (go_view _ _ _ HG r) as V. rewrite live_view in V by auto.
  destruct (existsb (Nat.eqb r) D) eqn:X; [discriminate|].
  assert (Lr0 : live s r) by (apply view_live; rewrite <- V; discriminate). split; [auto|]. rewrite live_view in V by auto. injection V; intros.
  split; [unfold covers in *; lia|]. intro Hx. assert (In r D) by (apply HD; auto).
  assert (existsb (Nat.eqb r) D = true) by (apply existsb_exists; exists r; split; auto; apply Nat.eqb_refl). congruence.
Qed.

Theorem big_delete_at_exact : forall s a alloc, R s ->
  (forall n, outermost s false a alloc n -> ~ anc s n (start s)) ->
  (delete_at nb biggest dbg s a alloc = Ok (s, false) /\ forall m, live s m -> covers s m a -> b_alloc (bigs s m) <> alloc) \/
  (exists s' n D, delete_at nb biggest dbg s a alloc = Ok (s', true) /\ outermost s false a alloc n /\ R s' /\ subtree s n D /\ gone s s' D).
Proof.
  intros s a alloc H Ha. destruct (reach_good _ _ _ _ _ _ _ H) as [(K & rk & HI) HW].
  destruct (delete_at_ok nb biggest dbg s K rk a alloc HI) as [X|(s' & K' & n & D & E & A & _ & B & C)].
  - intros n Hn. split; [apply HW, Hn|auto].
  - left. exact X.
  - right. exists s', n, D. split; [exact E|]. split; [exact A|]. split; [|auto].
    apply (reach_step _ _ _ _ _ _ s (DelAt a alloc) s' H Ha). cbn [step]. rewrite E. reflexivity.
Qed.

(* ---------------------------------------------------------------- C04 *)
Theorem big_create_exact : forall s ptr size priv mp alloc p, R s -> has_free nb s -> size <= biggest ->
  fits s p ptr (ptr + size) -> parent_choice s mp p ptr (ptr + size) ->
  exists s' n, new_bigalloc nb biggest dbg s ptr size priv mp alloc = Ok (s', n) /\ R s' /\ n <> 0%nat /\ view s n = None /\
    (forall m, view s' m = if Nat.eqb m n then Some (mkAttrs ptr (ptr + size) p alloc 0 priv 0) else view s m) /\
    start s' = start s /\ log s' = log s.
Proof.
  intros s ptr size pr mp a p H Hf Hs Hfit Hc. destruct (reach_good _ _ _ _ _ _ _ H) as [(K & rk & HI) HW].
  destruct (new_bigalloc_ok nb biggest dbg s K rk ptr size pr mp a p HI Hf Hs Hfit Hc) as (s' & n & K' & rk' & E & _ & A).
  exists s', n. split; [exact E|]. split; [|exact A].
  apply (reach_step _ _ _ _ _ _ s (New ptr size pr mp a) s' H); cbn [legal step]; [eauto|rewrite E; reflexivity].
Qed.

(* Full statement: a creation request whose range overlaps a live allocation without being
   contained in it is refused.  Missing: existing allocations strictly inside the requested
   range are not noticed (see big_create_swallow_refuted). *)
Theorem big_create_partial : forall s ptr size priv alloc, R s -> has_free nb s -> 0 < ptr -> 0 < size ->
  (forall m, ~ swallowed s m ptr (ptr + size)) ->
  (exists s' n p, new_bigalloc nb biggest dbg s ptr size priv 0 alloc = Ok (s', n) /\ R s' /\ n <> 0%nat /\ view s n = None /\
     lookup_answer s ptr p /\ lookup_answer s (ptr + size - 1) p /\ (forall m, ~ cuts s m ptr (ptr + size)) /\
     (forall m, view s' m = if Nat.eqb m n then Some (mkAttrs ptr (ptr + size) p alloc 0 priv 0) else view s m) /\
     start s' = start s /\ log s' = log s) \/
  (new_bigalloc nb biggest dbg s ptr size priv 0 alloc = Abort /\
     (biggest < size \/ (exists m, cuts s m ptr (ptr + size)) \/
      (forall m, live s m -> ~ covers s m ptr) /\ (ptr mod PAGE <> 0 \/ (ptr + size) mod PAGE <> 0))).
Proof.
  intros s ptr size pr a H Hf Hp Hs Hin. pose proof (reach_good _ _ _ _ _ _ _ H) as HG. destruct HG as [(K & rk & HI) HW].
  destruct (create_choose nb biggest dbg s K rk ptr size pr a HI Hf Hp Hs Hin) as [(s' & n & p & K' & rk' & E & HI' & A & B & C & D & F & G)|X]; [left|right; exact X].
  exists s', n, p. split; [exact E|]. split; [|auto 10].
  assert (Hsz : size <= biggest).
  { unfold new_bigalloc in E. destruct (Z.ltb_spec biggest size); [discriminate|lia]. }
  apply (reach_step _ _ _ _ _ _ s (New ptr size pr 0 a) s' H); cbn [legal step]; [|rewrite E; reflexivity].
  split; [auto|]. split; [auto|]. exists p. split; [|split; auto].
  pose proof (Inv_forest _ al _ _ _ HI') as [FO _].
  assert (Vn : view s' n = Some (mkAttrs ptr (ptr + size) p a 0 pr 0)) by (rewrite (proj1 G), Nat.eqb_refl; reflexivity).
  assert (Ln : live s' n) by (apply view_live; congruence).
  rewrite live_view in Vn by auto. injection Vn; intros Epr Eal Eal2 Esub Ep Ee Eb.
  split; [lia|]. split.
  - destruct (Nat.eqb_spec p 0) as [->|Ep0].
    + destruct (fo_aligned _ FO n Ln Ep) as [X Y]. rewrite Ee in Y. rewrite Eb in X. auto.
    + unfold lookup_answer in C, D. destruct (Nat.eqb_spec p 0); [congruence|]. destruct C as (Lp & C1 & _). destruct D as (_ & D1 & _).
      unfold covers in *. split; [auto|lia].
  - intros c Lc Hc. assert (Hcn : c <> n) by (intros ->; apply view_live in Lc; congruence).
    pose proof (proj1 G c) as Vc. destruct (Nat.eqb_spec c n); [congruence|]. assert (Lc' : live s' c) by (apply view_live; rewrite Vc; apply view_live; auto).
    rewrite !live_view in Vc by auto. injection Vc; intros.
    destruct (Z.le_gt_cases (b_end (bigs s c)) ptr); auto. destruct (Z.le_gt_cases (ptr + size) (b_begin (bigs s c))); auto.
    exfalso. apply (fo_sib _ FO c n Lc' Ln Hcn); [congruence|].
    pose proof (fo_range _ FO c Lc'). exists (Z.max ptr (b_begin (bigs s c))). unfold covers. lia.
Qed.

(* ---------------------------------------------------------------- C05 *)
Theorem big_mapping_below : forall s a, R s ->
  exists r, mapping_below nb dbg s a = Ok r /\
   ((r = 0%nat /\ forall x, toplevel s x -> a < b_end (bigs s x)) \/
    (toplevel s r /\ b_end (bigs s r) <= a /\
     forall x, toplevel s x -> b_end (bigs s x) <= a -> x = r \/ b_end (bigs s x) <= b_begin (bigs s r))).
Proof. intros s a H. destruct (reach_good _ _ _ _ _ _ _ H) as [(K & rk & HI) _]. exact (mapping_below_correct nb dbg s K rk HI a). Qed.

(* Full statement: the answer is the lowest mapping ending above the address, or none if
   there is no such mapping.  Missing: when nothing begins below the address the search
   answers "none" even if a mapping lies above (see big_mapping_at_or_above_refuted). *)
Theorem big_mapping_at_or_above_partial : forall s a, R s ->
  exists r, mapping_at_or_above nb dbg s a = Ok r /\
   ((forall x, toplevel s x -> a <= b_begin (bigs s x)) /\ r = 0%nat \/
    (exists x, toplevel s x /\ b_begin (bigs s x) < a) /\
    ((r = 0%nat /\ forall x, toplevel s x -> b_end (bigs s x) <= a) \/
     (toplevel s r /\ a < b_end (bigs s r) /\
      forall x, toplevel s x -> a < b_end (bigs s x) -> b_begin (bigs s r) <= b_begin (bigs s x)))).
Proof. intros s a H. destruct (reach_good _ _ _ _ _ _ _ H) as [(K & rk & HI) _]. exact (mapping_at_or_above_partial nb dbg s K rk HI a). Qed.

(* ---------------------------------------------------------------- C06 *)
(* Full statement: the answer is the innermost allocation covering both addresses, or none
   if there is none.  Missing: "none" is also answered in some cases where there is one
   (see big_common_parent_refuted); the cases listed are answered. *)
Theorem big_common_parent_partial : forall s x y, R s ->
  exists b1 b2 d1 d2 r, lookup_answer s x b1 /\ lookup_answer s y b2 /\ level s b1 d1 /\ level s b2 d2 /\
    common_parent nb s x y = Ok r /\
    (r = 0%nat \/ innermost_both s x y r) /\
    (b1 <> 0%nat -> covers s b1 y -> r = b1) /\
    (b1 <> 0%nat -> (d1 <= d2)%nat -> b_parent (bigs s b1) <> 0%nat -> ~ covers s b1 y ->
       covers s (b_parent (bigs s b1)) y -> r = b_parent (bigs s b1)) /\
    (b2 <> 0%nat -> (d2 < d1 <= 2 * d2)%nat -> covers s b2 x -> r = b2).
Proof. intros s x y H. destruct (reach_good _ _ _ _ _ _ _ H) as [(K & rk & HI) _]. exact (common_parent_partial nb s K rk HI x y). Qed.

(* ---------------------------------------------------------------- C07 *)
(* Full statement: for every range.  Missing: ranges with neither end page aligned (see
   big_delete_range_refuted). *)
Theorem big_delete_range_partial : forall s lo hi, R s -> 0 <= lo -> lo mod PAGE = 0 \/ hi mod PAGE = 0 -> ~ meets s (start s) lo hi ->
  exists s' D, delete_overlapping nb biggest dbg s lo hi = Ok s' /\ R s' /\ gone s s' D /\ (forall x, In x D <-> doomed s lo hi x).
Proof.
  intros s lo hi H H0 H1 H2. destruct (reach_good _ _ _ _ _ _ _ H) as [(K & rk & HI) HW].
  destruct (delete_overlapping_ok nb biggest dbg s K rk lo hi HI H0 H1) as (s' & K' & D & E & _ & A & B).
  { intros r [Lr _] Hm. split; [apply HW; auto|]. intros ->. auto. }
  exists s', D. split; [exact E|]. split; [|auto]. exact (reach_step _ _ _ _ _ _ s (DelRange lo hi) s' H (conj H0 (conj H1 H2)) E).
Qed.

(* ---------------------------------------------------------------- C08 *)
(* Full statement: for every page boundary inside the allocation.  Missing: boundaries
   falling inside a child (see big_split_refuted). *)
Theorem big_split_partial : forall s b sp, R s -> has_free nb s -> splittable s b sp ->
  exists s' nw, split nb dbg s b sp = Ok (s', nw) /\ R s' /\ view s nw = None /\ nw <> 0%nat /\
    (forall m, view s' m = split_view s b nw sp m) /\ start s' = start s /\ log s' = log s.
Proof.
  intros s b sp H Hf Hs. destruct (reach_good _ _ _ _ _ _ _ H) as [(K & rk & HI) HW].
  destruct (split_ok nb dbg s K rk b sp HI Hf Hs) as (s' & nw & K' & rk' & E & _ & A).
  exists s', nw. split; [exact E|]. split; [|exact A].
  apply (reach_step _ _ _ _ _ _ s (Split b sp) s' H); cbn [legal step]; [auto|rewrite E; reflexivity].
Qed.

(* ---------------------------------------------------------------- C42 *)
Theorem big_extend_exact : forall s n e, R s -> grow_end biggest s n e ->
  exists s', extend biggest dbg s n e = Ok s' /\ R s' /\ resized s s' n (b_begin (bigs s n)) e.
Proof.
  intros s n e H HL. destruct (reach_good _ _ _ _ _ _ _ H) as [(K & rk & HI) HW]. pose proof HL as (Ln & H1 & H2 & H3 & H4).
  destruct (extend_ok nb biggest dbg s K rk n e HI Ln H1 H2 H3 H4) as (s' & E & _ & A). exists s'. split; [exact E|]. split; [|exact A].
  exact (reach_step _ _ _ _ _ _ s (Extend n e) s' H HL E).
Qed.
Theorem big_truncate_end_exact : forall s n e, R s -> shrink_end s n e ->
  exists s', truncate_end biggest dbg s n e = Ok s' /\ R s' /\ resized s s' n (b_begin (bigs s n)) e.
Proof.
  intros s n e H HL. destruct (reach_good _ _ _ _ _ _ _ H) as [(K & rk & HI) HW]. pose proof HL as (Ln & H1 & H2 & H3).
  destruct (truncate_end_ok nb biggest dbg s K rk n e HI Ln H1 H2 (HW n Ln) H3) as (s' & E & _ & A). exists s'. split; [exact E|]. split; [|exact A].
  exact (reach_step _ _ _ _ _ _ s (TruncEnd n e) s' H HL E).
Qed.
Theorem big_truncate_begin_exact : forall s n b, R s -> legal nb biggest al s (TruncBegin n b) ->
  exists s', truncate_begin biggest dbg s n b = Ok s' /\ R s' /\ resized s s' n b (b_end (bigs s n)).
Proof.
  intros s n b H HL. destruct (reach_good _ _ _ _ _ _ _ H) as [(K & rk & HI) HW]. pose proof HL as (Ln & H1 & H2 & H3).
  destruct (truncate_begin_ok nb biggest dbg s K rk n b HI Ln H1 H2 (HW n Ln) H3) as (s' & E & _ & A). exists s'. split; [exact E|]. split; [|exact A].
  exact (reach_step _ _ _ _ _ _ s (TruncBegin n b) s' H HL E).
Qed.
Theorem big_pre_extend_exact : forall s n b, R s -> legal nb biggest al s (PreExtend n b) ->
  exists s', pre_extend nb biggest dbg s n b = Ok s' /\ R s' /\ resized s s' n b (b_end (bigs s n)).
Proof.
  intros s n b H HL. destruct (reach_good _ _ _ _ _ _ _ H) as [(K & rk & HI) HW]. pose proof HL as (Ln & H1 & H2 & H3).
  destruct (pre_extend_ok nb biggest dbg s K rk n b HI Ln H1 H2 H3) as (s' & E & _ & A). exists s'. split; [exact E|]. split; [|exact A].
  exact (reach_step _ _ _ _ _ _ s (PreExtend n b) s' H HL E).
Qed.

(* ---------------------------------------------------------------- C41 *)
Theorem big_stack_adoption : forall s stacks ptr, R s -> legal nb biggest al s (Touch stacks ptr) ->
  (forall m, live s m -> ~ covers s m ptr) ->
  (exists l1 b l2 s', stacks = l1 ++ b :: l2 /\
     (forall x, In x l1 -> ~ (near cur max s x ptr /\ gap_free s x ptr)) /\ near cur max s b ptr /\ gap_free s b ptr /\
     find_deepest_adopt nb biggest dbg al cur max s stacks ptr = Ok (s', b) /\ R s' /\ innermost s' ptr b /\
     (forall m, anc s m b -> view s' m = Some (lowered (attrs_of (bigs s m)) (RDOWN ptr)) /\ RDOWN ptr < b_begin (bigs s m)) /\
     (forall m, ~ anc s m b -> view s' m = view s m)) \/
  ((forall x, In x stacks -> ~ (near cur max s x ptr /\ gap_free s x ptr)) /\
     find_deepest_adopt nb biggest dbg al cur max s stacks ptr = Ok (s, 0%nat)).
Proof.
  intros s stacks ptr H HL Hno. destruct (reach_good _ _ _ _ _ _ _ H) as [(K & rk & HI) HW]. pose proof HL as (Hp & Hal & HS).
  assert (E0 : pidx s (PAGENUM ptr) = 0%nat).
  { destruct (Nat.eq_dec (pidx s (PAGENUM ptr)) 0) as [|E]; auto. destruct (pix_covers _ _ _ _ HI ptr E) as [L C]. exfalso. eapply Hno; eauto. }
  assert (Hst : forall s' b, find_deepest_adopt nb biggest dbg al cur max s stacks ptr = Ok (s', b) -> R s').
  { intros s' b E. apply (reach_step _ _ _ _ _ _ s (Touch stacks ptr) s' H HL). cbn [step]. rewrite E. reflexivity. }
  destruct (stack_notify_ok nb biggest dbg al Hal cur max s K rk ptr HI Hp E0 stacks HS) as
    [(l1 & b & l2 & s' & E1 & N1 & N2 & N3 & E & HI' & HV1 & HV2 & _ & _ & Hin)|[N E]].
  - left. exists l1, b, l2, s'.
    assert (F : find_deepest_adopt nb biggest dbg al cur max s stacks ptr = Ok (s', b)).
    { unfold find_deepest_adopt. rewrite E0. cbn [Nat.eqb]. rewrite E. cbn [bind].
      destruct (find_deepest_correct _ _ _ _ HI' ptr) as (r & Er & A). rewrite Er. cbn [bind].
      rewrite (lookup_answer_unique _ _ _ _ HI' ptr r b); auto.
      unfold lookup_answer. destruct (Nat.eqb_spec b 0) as [->|]; auto. exfalso. apply (proj1 (proj1 Hin)). reflexivity. }
    split; [auto|]. split; [auto|]. split; [auto|]. split; [auto|]. split; [auto|]. split; [eauto|]. auto.
  - right. split; [auto|]. unfold find_deepest_adopt. rewrite E0. cbn [Nat.eqb]. rewrite E. cbn [bind].
    unfold find_deepest. rewrite E0. reflexivity.
Qed.
End Props.

(* ------------------------------------------------------------ concrete cases *)
Import Ex.
(* big_lookup_innermost etc.: in the history above an address four levels in *)
Example ex_lookup : R s6 /\ find_deepest NB s6 2101300 = Ok 4%nat /\ leaf_bigalloc NB s6 2101300 = Ok 4%nat /\
  leaf_allocator NB s6 2166800 = Ok 4%nat /\ find_from_root NB s6 2101300 2 false = Ok 3%nat /\
  lookup_top_level NB s6 2101300 = Ok 2%nat /\ find_deepest NB s6 5000000 = Ok 0%nat.
Proof. split; [exact r6|]. repeat split; vm_compute; reflexivity. Qed.

(* big_delete_exact: deleting record 3 takes its child 4 with it, nothing else *)
Example ex_delete : R s6 /\ live s6 3 /\ ~ anc s6 3 (start s6) /\
  match bigalloc_del NB BIG true s6 3 with
  | Ok s' => (map (fun n => match view s' n with Some _ => true | None => false end) (seq 1 7),
              log s', find_deepest NB s' 2101300) = ([true; true; false; false; true; true; false], [92%nat], Ok 2%nat)
  | _ => False end.
Proof.
  split; [exact r6|]. split; [isl|]. split; [|vm_compute; reflexivity].
  intro H. apply anc_of_root in H; [|vm_compute; reflexivity]. revert H. vm_compute. discriminate.
Qed.

(* big_create_partial: a range cutting record 2 is refused, one inside record 5 is accepted *)
Example ex_create : R s6 /\ has_free NB s6 /\
  new_bigalloc NB BIG true s6 2220032 16384 0 0 1 = Abort /\
  match new_bigalloc NB BIG true s6 2166800 16 0 0 5 with Ok (s', n) => view s' n = Some (mkAttrs 2166800 2166816 5 5 0 0 0) | _ => False end.
Proof. split; [exact r6|]. split; [free 7%nat|]. split; vm_compute; reflexivity. Qed.

(* C04 is false of the code: a mapping-sized range swallowing record 2 is accepted, in
   debug and release builds alike, leaving two overlapping top-level allocations. *)
Theorem big_create_swallow_refuted : exists s ptr size s' n m, R s /\ has_free NB s /\
  new_bigalloc NB BIG true s ptr size 0 0 1 = Ok (s', n) /\ live s' n /\ live s' m /\ m <> n /\
  b_parent (bigs s' m) = b_parent (bigs s' n) /\ overlap s' m n.
Proof.
  set (r := new_bigalloc NB BIG true s1 2093056 139264 0 0 1).
  exists s1, 2093056, 139264, (fst (get (s1, 0%nat) r)), (snd (get (s1, 0%nat) r)), 2%nat.
  split; [exact r1|]. split; [free 3%nat|]. split.
  { fold r. rewrite <- surjective_pairing. apply is_ok. vm_compute. reflexivity. }
  unfold r. split; [split; [vm_compute; discriminate|vm_compute; reflexivity]|]. split; [isl|]. split; [vm_compute; discriminate|].
  split; [vm_compute; reflexivity|]. exists 2097152. split; split; dec.
Qed.

Example ex_below : R s6 /\ mapping_below NB true s6 4194305 = Ok 2%nat /\ mapping_below NB true s6 5000000 = Ok 6%nat /\
  mapping_at_or_above NB true s6 2300000 = Ok 6%nat /\ mapping_at_or_above NB true s6 4194305 = Ok 6%nat.
Proof. split; [exact r6|]. repeat split; vm_compute; reflexivity. Qed.

(* C05 is false of the code when nothing begins below the address. *)
Theorem big_mapping_at_or_above_refuted : exists s a r, R s /\ mapping_at_or_above NB true s a = Ok 0%nat /\
  toplevel s r /\ a < b_end (bigs s r).
Proof.
  exists s6, 1048576, 1%nat. split; [exact r6|]. split; [vm_compute; reflexivity|]. split; [split; [isl|vm_compute; reflexivity]|dec].
Qed.

Example ex_common : R s6 /\ common_parent NB s6 2097500 2101300 = Ok 3%nat /\ common_parent NB s6 2097500 2166800 = Ok 2%nat /\
  common_parent NB s6 2101300 2097500 = Ok 3%nat.
Proof. split; [exact r6|]. repeat split; vm_compute; reflexivity. Qed.

(* C06 is false of the code: record 2 encloses both addresses, "none" is answered. *)
Theorem big_common_parent_refuted : exists s x y r, R s /\ common_parent NB s x y = Ok 0%nat /\ live s r /\ covers s r x /\ covers s r y.
Proof. exists s6, 2101300, 2166800, 2%nat. split; [exact r6|]. split; [vm_compute; reflexivity|]. split; [isl|]. split; split; dec. Qed.

Example ex_delrange : R s6 /\ ~ meets s6 (start s6) 2228000 4194305 /\ (4202496 mod PAGE = 0) /\
  match delete_overlapping NB BIG true s6 2228000 4202496 with
  | Ok s' => map (fun n => match view s' n with Some _ => true | None => false end) (seq 1 7) = [true; false; false; false; false; false; false]
  | _ => False end.
Proof.
  split; [exact r6|]. split; [|split; vm_compute; reflexivity].
  intros (a & Ha & _ & H). assert (E : b_end (bigs s6 (start s6)) = 1114112) by (vm_compute; reflexivity). rewrite E in H. lia.
Qed.

(* C07 is false of the code when neither end is page aligned: record 6 meets the range and survives. *)
Theorem big_delete_range_refuted : exists s lo hi s' r, R s /\ ~ meets s (start s) lo hi /\
  delete_overlapping NB BIG true s lo hi = Ok s' /\ toplevel s r /\ meets s r lo hi /\ live s' r.
Proof.
  exists s6, 4192256, 4195328, (stp s6 (DelRange 4192256 4195328)), 6%nat. split; [exact r6|]. split.
  { intros (a & Ha & _ & H). assert (E : b_end (bigs s6 (start s6)) = 1114112) by (vm_compute; reflexivity). rewrite E in H. lia. }
  split; [change (step NB BIG true al (-1) (-1) s6 (DelRange 4192256 4195328) = Ok (stp s6 (DelRange 4192256 4195328))); runs|]. split; [split; [isl|vm_compute; reflexivity]|]. split; [|isl].
  exists 4194304. split; [lia|]. split; dec.
Qed.

Example ex_split : R s6 /\ has_free NB s6 /\ splittable s6 2 2166784 /\
  match split NB true s6 2 2166784 with
  | Ok (s', nw) => (nw, map (view s') [2; 3; 5; 7]%nat, find_deepest NB s' 2220000) =
     (7, [Some (mkAttrs 2097152 2166784 0 1 0 91 0); Some (mkAttrs 2097408 2162944 2 2 0 92 0);
          Some (mkAttrs 2166784 2170880 7 2 4 0 93); Some (mkAttrs 2166784 2228224 0 1 0 91 0)], Ok 7)%nat
  | _ => False end.
Proof.
  split; [exact r6|]. split; [free 7%nat|]. split; [|vm_compute; reflexivity].
  split; [isl|]. split; [reflexivity|]. split; [split; dec|]. kids r6.
Qed.

(* C08 is false of the code when a child spans the boundary: record 3 keeps its range and
   its parent, which no longer contains it. *)
Theorem big_split_refuted : exists s b sp s' nw c, R s /\ has_free NB s /\ live s b /\ sp mod PAGE = 0 /\
  b_begin (bigs s b) < sp < b_end (bigs s b) /\ split NB false s b sp = Ok (s', nw) /\
  live s' c /\ b_parent (bigs s' c) = b /\ b_end (bigs s' b) < b_end (bigs s' c).
Proof.
  set (r := split NB false s6 2 2105344).
  exists s6, 2%nat, 2105344, (fst (get (s6, 0%nat) r)), (snd (get (s6, 0%nat) r)), 3%nat.
  split; [exact r6|]. split; [free 7%nat|]. split; [isl|]. split; [reflexivity|]. split; [split; dec|]. split.
  { fold r. rewrite <- surjective_pairing. apply is_ok. vm_compute. reflexivity. }
  unfold r. split; [isl|]. split; [vm_compute; reflexivity|dec].
Qed.
(* ... and the two halves share one private-data pointer, freed once per half. *)
Theorem big_split_double_free_refuted : exists s b sp s1 nw s2 s3, R s /\ splittable s b sp /\
  split NB true s b sp = Ok (s1, nw) /\ bigalloc_del NB BIG true s1 b = Ok s2 /\ bigalloc_del NB BIG true s2 nw = Ok s3 /\
  ~ NoDup (log s3).
Proof.
  set (p := get (s6, 0%nat) (split NB true s6 2 2166784)).
  set (u := get s6 (bigalloc_del NB BIG true (fst p) 2)). set (v := get s6 (bigalloc_del NB BIG true u (snd p))).
  exists s6, 2%nat, 2166784, (fst p), (snd p), u, v.
  split; [exact r6|]. split; [split; [isl|]; split; [reflexivity|]; split; [split; dec|]; kids r6|].
  split; [rewrite <- surjective_pairing; apply is_ok; vm_compute; reflexivity|].
  split; [apply is_ok; vm_compute; reflexivity|]. split; [apply is_ok; vm_compute; reflexivity|].
  assert (E : log v = [92; 91; 93; 91]%nat) by (vm_compute; reflexivity).
  rewrite E. intro H. inversion H as [|? ? _ H2]. inversion H2 as [|? ? H3 _]. apply H3. simpl; auto.
Qed.

(* An allocation grown past the size limit can never be deleted: the call aborts. *)
Theorem big_delete_oversized_refuted : exists s s1 s2, R s /\ extend BIG false s 6 (4194304 + 2 ^ 20) = Ok s1 /\
  extend BIG false s1 6 (4194304 + 2 ^ 20 + 4096) = Ok s2 /\ live s2 6 /\ bigalloc_del NB BIG false s2 6 = Abort.
Proof.
  set (u := get s6 (extend BIG false s6 6 (4194304 + 2 ^ 20))).
  exists s6, u, (get s6 (extend BIG false u 6 (4194304 + 2 ^ 20 + 4096))).
  split; [exact r6|]. split; [apply is_ok; vm_compute; reflexivity|]. split; [apply is_ok; vm_compute; reflexivity|]. split; [isl|vm_compute; reflexivity].
Qed.

Example ex_resize : R s6 /\ grow_end BIG s6 5 2171000 /\ shrink_end s6 5 2168000 /\
  match extend BIG true s6 5 2171000 with Ok s' => find_deepest NB s' 2170900 = Ok 5%nat | _ => False end /\
  match truncate_end BIG true s6 5 2168000 with Ok s' => find_deepest NB s' 2168000 = Ok 2%nat | _ => False end.
Proof.
  assert (G : forall e, 2168000 <= e <= 2171000 -> good_range s6 5 (b_begin (bigs s6 5)) e).
  { intros e He. assert (B : b_begin (bigs s6 5) = 2166784) by (vm_compute; reflexivity). assert (E : b_end (bigs s6 5) = 2170880) by (vm_compute; reflexivity).
    assert (P : b_parent (bigs s6 5) = 2%nat) by (vm_compute; reflexivity). rewrite B. constructor.
    - lia.
    - rewrite B, E. lia.
    - intros _. rewrite P. assert (B2 : b_begin (bigs s6 2) = 2097152) by (vm_compute; reflexivity). assert (E2 : b_end (bigs s6 2) = 2228224) by (vm_compute; reflexivity). lia.
    - intros c Hc Hp. exfalso. pose proof (bound _ c r6 Hc).
      en 10%nat c ltac:(first [ exact (proj1 Hc eq_refl) | apply proj2 in Hc; vm_compute in Hc; discriminate Hc | vm_compute in Hp; discriminate Hp ]).
    - intros m Hc Hne Hp. left. pose proof (bound _ m r6 Hc). rewrite P in Hp.
      en 10%nat m ltac:(first [ exfalso; exact (proj1 Hc eq_refl) | congruence | exfalso; apply proj2 in Hc; vm_compute in Hc; discriminate Hc | exfalso; vm_compute in Hp; discriminate Hp | dec ]).
    - rewrite P. discriminate. }
  split; [exact r6|]. split; [|split; [|split; vm_compute; reflexivity]].
  - split; [isl|]. split; [dec|]. split; [apply G; lia|]. split; [dec|]. left. dec.
  - split; [isl|]. split; [dec|]. split; [apply G; lia|]. left. dec.
Qed.

Example ex_stack : R s6 /\ (forall m, live s6 m -> ~ covers s6 m 4190000) /\ near (-1) (-1) s6 6 4190000 /\
  match find_deepest_adopt NB BIG true al (-1) (-1) s6 [6%nat] 4190000 with
  | Ok (s', b) => (b, view s' 6%nat) = (6%nat, Some (mkAttrs 4186112 4259840 0 1 0 0 0)) | _ => False end /\
  match find_deepest_adopt NB BIG true al (-1) (-1) s6 [6%nat] 2000000 with Ok (_, b) => b = 0%nat | _ => False end.
Proof.
  split; [exact r6|]. split.
  { intros m Hm. pose proof (look s6 4190000 0 r6 ltac:(vm_compute; reflexivity)) as A. exact (A m Hm). }
  split; [split; [dec|left; dec]|]. split; vm_compute; reflexivity.
Qed.

Print Assumptions big_forest_always.
Print Assumptions big_calls_succeed.
Print Assumptions big_lookup_innermost.
Print Assumptions big_leaf_lookup_innermost.
Print Assumptions big_lookup_unique.
Print Assumptions big_leaf_allocator.
Print Assumptions big_find_by_allocator.
Print Assumptions big_top_level_lookup.
Print Assumptions big_delete_exact.
Print Assumptions big_delete_lookup.
Print Assumptions big_delete_at_exact.
Print Assumptions big_create_exact.
Print Assumptions big_create_partial.
Print Assumptions big_create_swallow_refuted.
Print Assumptions big_mapping_below.
Print Assumptions big_mapping_at_or_above_partial.
Print Assumptions big_mapping_at_or_above_refuted.
Print Assumptions big_common_parent_partial.
Print Assumptions big_common_parent_refuted.
Print Assumptions big_delete_range_partial.
Print Assumptions big_delete_range_refuted.
Print Assumptions big_split_partial.
Print Assumptions big_split_refuted.
Print Assumptions big_split_double_free_refuted.
Print Assumptions big_delete_oversized_refuted.
Print Assumptions big_extend_exact.
Print Assumptions big_truncate_end_exact.
Print Assumptions big_truncate_begin_exact.
Print Assumptions big_pre_extend_exact.
Print Assumptions big_stack_adoption.
