(* Properties C18-C21: the memory-range cache and cached base queries.
   In every theorem the capacity n is the compile-time
   LIBALLOCS_MEMRANGE_CACHE_MAX_SIZE (8 by default); [cache_capacity_32_refuted] shows
   why it must stay below 32. *)
From Verif Require Import Base.
From Verif Require Import Cache_model Cache_spec Cache_proof Cache_lru.
From Coq Require Import Permutation.

(* C18.  Every sequence of calls runs to completion, leaves a recency list that is exactly
   the set of valid slots, doubly linked, and passes the code's own sanity check. *)
Theorem cache_structure_always : forall (n : nat) (h : list cop),
  (0 < n < 32)%nat ->
  exists c outs l, crun (init_cache n) h = Ok (c, outs) /\ recency c l /\
    c_size c = n /\ sanity c = Ok tt.
Proof.
  intros n h Hn.
  destruct (crun_ok h (init_cache n) [] (init_Rep n) Hn) as (c & l & A & B & C & _).
  exists c. eexists. exists l. split; [exact A|]. split; [apply Rep_recency, B|].
  split; [exact C|apply (sanity_ok _ _ B)].
Qed.
Print Assumptions cache_structure_always.

(* C20 (and C18): the whole observable behaviour is that of a least-recently-used cache
   of capacity n, and the recency list spells out its contents. *)
Theorem cache_is_lru : forall (n : nat) (h : list cop),
  (0 < n < 32)%nat ->
  exists c outs l k, crun (init_cache n) h = Ok (c, outs) /\
    lru_run n 0 [] h k outs /\ (length k <= n)%nat /\
    recency c l /\ map (fun i => e_rcd (c_ent c i)) l = map snd k.
Proof.
  intros n h Hn.
  destruct (crun_ok h (init_cache n) [] (init_Rep n) Hn) as (c & l & A & B & C & D).
  destruct (arun_lru n h 0 []) as (k & E & F & G); [lia|cbn; lia|exact I|intros x []|].
  exists c. eexists. exists l, k. split; [exact A|]. split; [exact G|]. split; [exact F|].
  split; [apply Rep_recency, B|]. cbn in E. rewrite E. exact D.
Qed.
Print Assumptions cache_is_lru.

(* C19.  A hit is a record some fill stored, that answers the query and that nothing
   has invalidated since. *)
Theorem cache_hit_fresh : forall n h c outs o c' r,
  (0 < n < 32)%nat ->
  crun (init_cache n) h = Ok (c, outs) -> cstep c o = Ok (c', Some r) ->
  stored_fresh h r /\ answers o r.
Proof.
  intros n h c outs o c' r Hn Hr Hs.
  destruct (crun_ok h (init_cache n) [] (init_Rep n) Hn) as (c1 & l & A & B & C & D).
  assert (Ec : c1 = c) by congruence. subst c1.
  destruct (cstep_ok c l o B) as (c2 & l2 & A2 & _); [cbn in *; lia|].
  assert (E : snd (astep (c_size c) (recs c l) o) = Some r) by congruence.
  apply astep_hit in E. destruct E as [E1 E2]. split; [|exact E2].
  apply (arun_fresh n). cbn in D. rewrite <- D. exact E1.
Qed.
Print Assumptions cache_hit_fresh.

(* C21, full statement: for every history of object creation, queries and frees in which
   every freed object is invalidated, a base query gives the answer an uncached query
   gives.  Proved part: live leaf objects pairwise disjoint (no object is created inside
   an object that is itself still a query answer).  The nested case is refuted below. *)
Theorem base_query_coherent_partial : forall n es c w a,
  (0 < n < 32)%nat -> history n es (c, w) ->
  exists c' ans, get_base c (world_info w) a = Ok (c', ans) /\
    (forall o, holds w a o -> ans = Some (o_base o)) /\
    ((forall o, ~ holds w a o) -> ans = None) /\
    (exists c0, get_base (init_cache n) (world_info w) a = Ok (c0, ans)).
Proof.
  intros n es c w a Hn H. assert (HC := history_inv _ _ _ Hn H).
  destruct (get_base_ok n c w a Hn HC) as (c' & A & _).
  exists c'. eexists. split; [exact A|].
  assert (HD : disjoint_world w) by (destruct HC as (l & _ & _ & HD & _); exact HD).
  split.
  { intros o Ho. unfold world_info. rewrite (proj2 HD o a Ho). reflexivity. }
  split.
  { intro Hno. unfold world_info. destruct (find (contains a) w) as [o|] eqn:E; [|reflexivity].
    apply find_some in E. destruct E as [E1 E2]. apply contains_ok in E2.
    exfalso. apply (Hno o). split; assumption. }
  destruct (get_base_ok n (init_cache n) w a Hn) as (c0 & A0 & _); [|exists c0; exact A0].
  exists []. cbn. split; [apply init_Rep|]. split; [reflexivity|]. split; [exact HD|intros r []].
Qed.
Print Assumptions base_query_coherent_partial.

(* Every allowed event can be carried out, so histories of any length exist. *)
Theorem base_query_progress : forall n es cw e,
  (0 < n < 32)%nat -> history n es cw -> allowed (snd cw) e ->
  exists cw' a, estep cw e = Ok (cw', a) /\ history n (es ++ [e]) cw'.
Proof.
  intros n es cw e Hn H Ha.
  destruct (estep_inv n cw e Hn (history_inv _ _ _ Hn H) Ha) as (cw' & a & E & _).
  exists cw', a. split; [exact E|]. apply hist_snoc with cw a; assumption.
Qed.
Print Assumptions base_query_progress.

Definition answer (r : res (cache * option Z)) : option (option Z) :=
  match r with Ok (_, a) => Some a | _ => None end.

(* C21 fails once an object is created inside one that was already queried: the cached
   outer record keeps answering.  (A mapping queried before a heap arena is set up in it.) *)
Theorem base_query_nested_refuted : exists outer inner c w a,
  erun (init_cache 8, []) [ECreate outer; EQuery a; ECreate inner] = Ok (c, w) /\
  o_base outer < o_base inner /\ o_base inner + o_size inner < o_base outer + o_size outer /\
  answer (get_base c (world_info w) a) = Some (Some (o_base outer)) /\
  answer (get_base (init_cache 8) (world_info w) a) = Some (Some (o_base inner)).
Proof.
  exists (mkO 4096 8192 true), (mkO 6144 1024 true).
  destruct (erun (init_cache 8, []) [ECreate (mkO 4096 8192 true); EQuery 6200; ECreate (mkO 6144 1024 true)])
    as [[c w]| | |] eqn:E; try (vm_compute in E; discriminate).
  exists c, w, 6200. split; [exact E|].
  split; [cbn; lia|]. split; [cbn; lia|].
  assert (A : match erun (init_cache 8, []) [ECreate (mkO 4096 8192 true); EQuery 6200; ECreate (mkO 6144 1024 true)] with
    | Ok (c, w) => answer (get_base c (world_info w) 6200) = Some (Some 4096) /\
                   answer (get_base (init_cache 8) (world_info w) 6200) = Some (Some 6144)
    | _ => False end) by (vm_compute; auto).
  rewrite E in A. exact A.
Qed.
Print Assumptions base_query_nested_refuted.

(* ... and the invalidation hypothesis is needed: an unmapped mapping is not invalidated
   by src/allocators/mmap.c, and its record keeps answering. *)
Theorem base_query_silent_free_refuted : exists o c w a,
  erun (init_cache 8, []) [ECreate o; EQuery a; EFreeSilent (o_base o)] = Ok (c, w) /\
  (forall x, ~ holds w a x) /\
  answer (get_base c (world_info w) a) = Some (Some (o_base o)).
Proof.
  exists (mkO 4096 8192 true).
  destruct (erun (init_cache 8, []) [ECreate (mkO 4096 8192 true); EQuery 6200; EFreeSilent 4096])
    as [[c w]| | |] eqn:E; try (vm_compute in E; discriminate).
  exists c, w, 6200. split; [exact E|].
  assert (A : match erun (init_cache 8, []) [ECreate (mkO 4096 8192 true); EQuery 6200; EFreeSilent 4096] with
    | Ok (c, w) => w = [] /\ answer (get_base c (world_info w) 6200) = Some (Some 4096)
    | _ => False end) by (vm_compute; auto).
  rewrite E in A. destruct A as [Aw Ab]. split; [|exact Ab].
  intros x [Hx _]. rewrite Aw in Hx. exact Hx.
Qed.
Print Assumptions base_query_silent_free_refuted.

(* A reused object that begins before the invalidated range is not dropped, although it
   overlaps it: invalidation goes by the base only. *)
Theorem uncache_overlap_refuted : exists r p sz c outs,
  r_base r < p < r_limit r /\ 0 < sz /\
  crun (init_cache 8) [Fill r; Uncache p sz; LookAny p 0] = Ok (c, outs) /\
  nth 2 outs None = Some r.
Proof.
  exists (mkR 4096 8192 1 1 0), 5000, 100.
  destruct (crun (init_cache 8) [Fill (mkR 4096 8192 1 1 0); Uncache 5000 100; LookAny 5000 0])
    as [[c outs]| | |] eqn:E; try (vm_compute in E; discriminate).
  exists c, outs. split; [cbn; lia|]. split; [lia|]. split; [reflexivity|].
  assert (A : match crun (init_cache 8) [Fill (mkR 4096 8192 1 1 0); Uncache 5000 100; LookAny 5000 0] with
    | Ok (_, outs) => nth 2 outs None = Some (mkR 4096 8192 1 1 0) | _ => False end) by (vm_compute; reflexivity).
  rewrite E in A. exact A.
Qed.
Print Assumptions uncache_overlap_refuted.

(* The capacity bound is needed: with 32 slots the "all slots taken" test can no longer
   be expressed in the 32-bit mask, and the next fill is undefined. *)
Theorem cache_capacity_32_refuted : exists h,
  crun (init_cache 32) h = UB.
Proof.
  exists (map (fun k => Fill (mkR (Z.of_nat k * 16) (Z.of_nat k * 16 + 16) 1 1 0)) (seq 0 33)).
  vm_compute. reflexivity.
Qed.
Print Assumptions cache_capacity_32_refuted.

(* ---- concrete cases ---- *)
Module Cache_ex.
Definition rec (k : Z) : rcd := mkR (k * 100) (k * 100 + 100) k 10 0.
(* three slots, five fills, a hit that rescues the oldest record, an invalidation *)
Definition h : list cop :=
  [Fill (rec 1); Fill (rec 2); Fill (rec 3); Look 110 1 0; Fill (rec 4); LookAny 200 0;
   Uncache 300 1; LookAny 300 0; Fill (rec 5); LookAny 410 10].
Definition outs := match crun (init_cache 3) h with Ok (_, o) => o | _ => [] end.
Example h_outs : outs = [None; None; None; Some (rec 1); None; None; None; None; None; Some (rec 4)].
Proof. vm_compute. reflexivity. Qed.
Example h_capacity : (0 < 3 < 32)%nat. Proof. lia. Qed.

Definition o1 := mkO 4096 64 true.
Definition o2 := mkO 8192 32 true.
Definition es := [ECreate o1; ECreate o2; EQuery 4100; EQuery 8192; EFree 4096 64; ECreate (mkO 4080 32 true)].
Example es_history : exists c w, history 8 es (c, w) /\ holds w 4100 (mkO 4080 32 true) /\
  answer (get_base c (world_info w) 4100) = Some (Some 4080).
Proof.
  destruct (erun (init_cache 8, []) es) as [[c w]| | |] eqn:E; try (vm_compute in E; discriminate).
  exists c, w.
  assert (W : w = [mkO 4080 32 true; o2]).
  { assert (A : match erun (init_cache 8, []) es with Ok (_, w) => w = [mkO 4080 32 true; o2] | _ => False end)
      by (vm_compute; reflexivity). rewrite E in A. exact A. }
  split; [|split].
  - unfold es in E. cbn [erun] in E.
    destruct (estep (init_cache 8, []) (ECreate o1)) as [[s1 a1]| | |] eqn:E1; cbn [bind] in E; try discriminate.
    assert (H1 : history 8 [ECreate o1] s1).
    { apply (hist_snoc 8 [] (init_cache 8, []) (ECreate o1) s1 a1); [constructor| |exact E1].
      cbn. split; [lia|intros x []]. }
    assert (W1 : snd s1 = [o1]) by (cbn in E1; injection E1 as <- <-; reflexivity).
    destruct (estep s1 (ECreate o2)) as [[s2 a2]| | |] eqn:E2; cbn [bind] in E; try discriminate.
    assert (H2 : history 8 [ECreate o1; ECreate o2] s2).
    { apply (hist_snoc 8 [ECreate o1] s1 (ECreate o2) s2 a2); [exact H1| |exact E2].
      rewrite W1. cbn. split; [lia|]. intros x [<-|[]]. cbn. lia. }
    assert (W2 : snd s2 = [o2; o1]).
    { destruct s1 as [c1 w1]. cbn in E2, W1. injection E2 as <- <-. cbn. congruence. }
    destruct (estep s2 (EQuery 4100)) as [[s3 a3]| | |] eqn:E3; cbn [bind] in E; try discriminate.
    assert (H3 := hist_snoc 8 _ s2 (EQuery 4100) s3 a3 H2 I E3).
    destruct (estep s3 (EQuery 8192)) as [[s4 a4]| | |] eqn:E4; cbn [bind] in E; try discriminate.
    assert (H4 := hist_snoc 8 _ s3 (EQuery 8192) s4 a4 H3 I E4).
    destruct (estep s4 (EFree 4096 64)) as [[s5 a5]| | |] eqn:E5; cbn [bind] in E; try discriminate.
    assert (H5 := hist_snoc 8 _ s4 (EFree 4096 64) s5 a5 H4 ltac:(cbn; lia) E5).
    destruct (estep s5 (ECreate (mkO 4080 32 true))) as [[s6 a6]| | |] eqn:E6; cbn [bind] in E; try discriminate.
    injection E as E. subst s6.
    apply (hist_snoc 8 _ s5 (ECreate (mkO 4080 32 true)) (c, w) a6 H5); [|exact E6].
    assert (W5 : snd s5 = [o2]).
    { destruct s5 as [c5 w5]. cbn in E6. injection E6 as _ E7. rewrite W in E7. cbn. congruence. }
    rewrite W5. cbn. split; [lia|]. intros x [<-|[]]. cbn. lia.
  - rewrite W. split; [simpl; auto|cbn; lia].
  - assert (A : match erun (init_cache 8, []) es with
      | Ok (c, w) => answer (get_base c (world_info w) 4100) = Some (Some 4080) | _ => False end)
      by (vm_compute; reflexivity).
    rewrite E in A. exact A.
Qed.
End Cache_ex.
