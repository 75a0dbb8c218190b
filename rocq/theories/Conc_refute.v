(* C69, calls which leave the lock: schedules of two threads, both within their contracts,
   after which an answer was never right or the table is broken. *)
From Verif Require Import Base Big_model Big_spec Big_inv Big_lookup Big_links Big_hist Big_more Big_common Big_range Big_props
  Conc_model Conc_spec Conc_proof Conc_code Conc_more Conc_props.
Import Big_props.Ex CoEx.

Lemma aft_R s x : R s -> legalc NB BIG al s x -> R (aft s x).
Proof. intros H L. destruct (sem_legal _ _ _ _ _ _ x s H L) as (s' & r & E & H'). unfold aft. rewrite E. exact H'. Qed.

(* Creating: a new sibling is put at the head of its parent's list before its link to the
   rest is written (pageindex.c:506-508); a lookup passing then misses the allocations
   further down the list, although nothing at its address has changed. *)
Definition new_ : call := CNew 2170880 4096 0 2 2.
Definition cr : config st call nat := at_ s6 [CLeaf 2097664] [new_] (repeat 1%nat 10 ++ repeat 0%nat 6 ++ repeat 1%nat 12).
Theorem conc_create_refuted : exists s0 s1 x a c n r,
  R s0 /\ legalc NB BIG al s0 x /\ sm x s0 = Ok (s1, 7%nat) /\ R s1 /\
  steps cd (start_c s0 (two [CLeaf a] [x])) c /\ idle c /\ done_ c 0 = [r] /\
  lookup_answer s0 a n /\ lookup_answer s1 a n /\ r <> n.
Proof.
  assert (L : legalc NB BIG al s6 new_).
  { cbn [legalc op_of legal new_]. split; [free 7%nat|]. split; [unfold BIG; lia|]. exists 2%nat. split; [|reflexivity].
    split; [lia|]. split; [cbn [Nat.eqb]; split; [isl|split; dec]|]. kids r6. }
  pose proof (is_aft s6 new_ 7 ltac:(vm_compute; reflexivity)) as E.
  assert (R1 : R (aft s6 new_)).
  { apply aft_R; [exact r6|exact L]. }
  exists s6, (aft s6 new_), new_, 2097664, cr, 3%nat, 2%nat.
  split; [exact r6|]. split; [exact L|]. split; [exact E|]. split; [exact R1|].
  split; [apply at_steps; vm_compute; reflexivity|]. split; [apply idle_all; vm_compute; reflexivity|]. split; [vm_compute; reflexivity|].
  split; [apply look; [exact r6|vm_compute; reflexivity]|]. split; [apply look; [exact R1|vm_compute; reflexivity]|]. discriminate.
Qed.

Lemma del_legal s a x n : R s -> find_from_root NB s a x false = Ok n -> n <> 1%nat -> start s = 1%nat -> b_parent (bigs s 1) = 0%nat ->
  legalc NB BIG al s (CDelAt a x).
Proof.
  intros HR E Hn Hs Hp. cbn [legalc op_of legal]. intros m Hm Ha. rewrite Hs in Ha. apply anc_of_root in Ha; [|exact Hp]. subst m.
  destruct (big_find_by_allocator _ _ _ _ _ _ s a x false HR) as (k & F & D). rewrite E in F. injection F; intros <-.
  destruct D as [[-> D]|D].
  - destruct Hm as (L & C & A & _). exact (D _ L C A).
  - destruct Hm as (L & C & A & M), D as (L' & C' & A' & M').
    pose proof (M' 1%nat L C A) as Q. apply anc_of_root in Q; [|exact Hp]. congruence.
Qed.

(* Deleting: a lookup standing on a sibling when it is deleted finds its link gone. *)
Definition del_ : call := CDelAt 2166784 2.
Definition cde : config st call nat := at_ s6 [CLeaf 2097664] [del_] (repeat 0%nat 4 ++ repeat 1%nat 25 ++ repeat 0%nat 2).
Theorem conc_delete_refuted : exists s0 s1 x a c n r,
  R s0 /\ legalc NB BIG al s0 x /\ sm x s0 = Ok (s1, 1%nat) /\ R s1 /\
  steps cd (start_c s0 (two [CLeaf a] [x])) c /\ idle c /\ done_ c 0 = [r] /\
  lookup_answer s0 a n /\ lookup_answer s1 a n /\ r <> n.
Proof.
  assert (L : legalc NB BIG al s6 del_).
  { apply del_legal with (n := 5%nat); [exact r6|vm_compute; reflexivity|discriminate|reflexivity|vm_compute; reflexivity]. }
  pose proof (is_aft s6 del_ 1 ltac:(vm_compute; reflexivity)) as E.
  assert (R1 : R (aft s6 del_)).
  { apply aft_R; [exact r6|exact L]. }
  exists s6, (aft s6 del_), del_, 2097664, cde, 3%nat, 2%nat.
  split; [exact r6|]. split; [exact L|]. split; [exact E|]. split; [exact R1|].
  split; [apply at_steps; vm_compute; reflexivity|]. split; [apply idle_all; vm_compute; reflexivity|]. split; [vm_compute; reflexivity|].
  split; [apply look; [exact r6|vm_compute; reflexivity]|]. split; [apply look; [exact R1|vm_compute; reflexivity]|]. discriminate.
Qed.

(* Reuse: a lookup which has found its record when the mapping is unmapped and another made
   elsewhere answers with the allocator of the other; the address never had that allocator. *)
Definition del6 : call := CDelAt 4194304 1.
Definition new6 : call := CNew 8388608 65536 0 0 3.
Definition cru : config st call nat := at_ s6 [CLeafAlloc 4194304] [del6; new6] (repeat 0%nat 2 ++ repeat 1%nat 36 ++ repeat 0%nat 4).
Theorem conc_reuse_refuted : exists s0 s1 s2 x y a c r,
  R s0 /\ legalc NB BIG al s0 x /\ sm x s0 = Ok (s1, 1%nat) /\ R s1 /\ legalc NB BIG al s1 y /\ sm y s1 = Ok (s2, 6%nat) /\ R s2 /\
  steps cd (start_c s0 (two [CLeafAlloc a] [x; y])) c /\ idle c /\ done_ c 0 = [r] /\
  leaf_allocator NB s0 a = Ok 1%nat /\ leaf_allocator NB s1 a = Ok 0%nat /\ leaf_allocator NB s2 a = Ok 0%nat /\ r = 3%nat.
Proof.
  assert (L : legalc NB BIG al s6 del6).
  { apply del_legal with (n := 6%nat); [exact r6|vm_compute; reflexivity|discriminate|reflexivity|vm_compute; reflexivity]. }
  pose proof (is_aft s6 del6 1 ltac:(vm_compute; reflexivity)) as E.
  assert (R1 : R (aft s6 del6)).
  { apply aft_R; [exact r6|exact L]. }
  assert (L2 : legalc NB BIG al (aft s6 del6) new6).
  { cbn [legalc op_of legal new6]. split; [free 6%nat|]. split; [unfold BIG; lia|]. exists 0%nat. split.
    - split; [lia|]. split; [cbn; split; reflexivity|]. kids R1.
    - split; apply look; try apply R1; vm_compute; reflexivity. }
  pose proof (is_aft (aft s6 del6) new6 6 ltac:(vm_compute; reflexivity)) as E2.
  assert (R2 : R (aft (aft s6 del6) new6)).
  { apply aft_R; [exact R1|exact L2]. }
  exists s6, (aft s6 del6), (aft (aft s6 del6) new6), del6, new6, 4194304, cru, 3%nat.
  split; [exact r6|]. split; [exact L|]. split; [exact E|]. split; [exact R1|]. split; [exact L2|]. split; [exact E2|]. split; [exact R2|].
  split; [apply at_steps; vm_compute; reflexivity|]. split; [apply idle_all; vm_compute; reflexivity|]. split; [vm_compute; reflexivity|].
  repeat split; vm_compute; reflexivity.
Qed.

(* The top-level lookup climbs after giving up the lock: it answers with a record deleted
   meanwhile, while the mapping it was asked for is there throughout. *)
Definition del3 : call := CDelAt 2101248 2.
Definition cto : config st call nat := at_ s6 [CTop 2101300] [del3] (repeat 0%nat 4 ++ repeat 1%nat 42 ++ repeat 0%nat 2).
Theorem conc_top_level_refuted : exists s0 s1 x a c m r,
  R s0 /\ legalc NB BIG al s0 x /\ sm x s0 = Ok (s1, 1%nat) /\ R s1 /\
  steps cd (start_c s0 (two [CTop a] [x])) c /\ idle c /\ done_ c 0 = [r] /\
  lookup_top_level NB s0 a = Ok m /\ lookup_top_level NB s1 a = Ok m /\ live s1 m /\ covers s1 m a /\ r <> m /\ ~ live s1 r /\
  b_parent (bigs s0 r) <> 0%nat.
Proof.
  assert (L : legalc NB BIG al s6 del3).
  { apply del_legal with (n := 3%nat); [exact r6|vm_compute; reflexivity|discriminate|reflexivity|vm_compute; reflexivity]. }
  pose proof (is_aft s6 del3 1 ltac:(vm_compute; reflexivity)) as E.
  assert (R1 : R (aft s6 del3)).
  { apply aft_R; [exact r6|exact L]. }
  exists s6, (aft s6 del3), del3, 2101300, cto, 2%nat, 4%nat.
  split; [exact r6|]. split; [exact L|]. split; [exact E|]. split; [exact R1|].
  split; [apply at_steps; vm_compute; reflexivity|]. split; [apply idle_all; vm_compute; reflexivity|]. split; [vm_compute; reflexivity|].
  split; [vm_compute; reflexivity|]. split; [vm_compute; reflexivity|]. split; [isl|]. split; [split; dec|]. split; [discriminate|].
  split; [intros [_ H]; vm_compute in H; discriminate H|vm_compute; discriminate].
Qed.

(* Two threads set the end of one mapping, one of them by the call which looks at the old
   end before taking the lock.  In either order the mapping's last bytes are found by
   lookups; interleaved they are not, though the mapping claims them. *)
Ltac gr HR := constructor;
  [ split; dec | split; dec | let H := fresh in intro H; exfalso; apply H; vm_compute; reflexivity
  | let c := fresh "c" in let Hc := fresh "Hc" in let Hp := fresh "Hp" in let Hb := fresh "Hb" in
    intros c Hc Hp; exfalso; pose proof (bound _ c HR Hc) as Hb;
    en 10%nat c ltac:(first [ exact (proj1 Hc eq_refl) | apply proj2 in Hc; vm_compute in Hc; discriminate Hc | vm_compute in Hp; discriminate Hp ])
  | let c := fresh "c" in let Hc := fresh "Hc" in let Hp := fresh "Hp" in let Hb := fresh "Hb" in let Hn := fresh "Hn" in
    intros c Hc Hn Hp; pose proof (bound _ c HR Hc) as Hb;
    en 10%nat c ltac:(first [ exfalso; exact (proj1 Hc eq_refl) | exfalso; apply Hn; reflexivity
       | exfalso; apply proj2 in Hc; vm_compute in Hc; discriminate Hc | exfalso; vm_compute in Hp; discriminate Hp | left; dec | right; dec ])
  | intros _; split; vm_compute; reflexivity ].
Definition e1 : Z := 4194304 + 49152.
Definition e2 : Z := 4194304 + 32768.
Definition adj : call := CAdjustEnd 6 e1.
Definition trn : call := CTruncEnd 6 e2.
Definition cad : config st call nat := at_ s6 [adj] [trn] (repeat 0%nat 2 ++ repeat 1%nat 8 ++ repeat 0%nat 7).
Theorem conc_adjust_refuted : exists s0 x y c n a,
  R s0 /\ legalc NB BIG al s0 x /\ legalc NB BIG al s0 y /\ legalc NB BIG al (aft s0 x) y /\ legalc NB BIG al (aft s0 y) x /\
  R (aft (aft s0 x) y) /\ R (aft (aft s0 y) x) /\
  steps cd (start_c s0 (two [x] [y])) c /\ idle c /\
  live (sh c) n /\ covers (sh c) n a /\ find_deepest NB (sh c) a = Ok 0%nat.
Proof.
  assert (La : legalc NB BIG al s6 adj).
  { cbn [legalc op_of legal adj]. right. split; [isl|]. split; [dec|]. split; [gr r6|left; dec]. }
  assert (Lt : legalc NB BIG al s6 trn).
  { cbn [legalc op_of legal trn]. split; [isl|]. split; [dec|]. split; [gr r6|left; dec]. }
  assert (Ra : R (aft s6 adj)) by (apply aft_R; [exact r6|exact La]).
  assert (Rt : R (aft s6 trn)) by (apply aft_R; [exact r6|exact Lt]).
  assert (Lat : legalc NB BIG al (aft s6 adj) trn).
  { cbn [legalc op_of legal trn]. split; [isl|]. split; [dec|]. split; [gr Ra|left; dec]. }
  assert (Lta : legalc NB BIG al (aft s6 trn) adj).
  { cbn [legalc op_of legal adj]. left. split; [isl|]. split; [dec|]. split; [gr Rt|]. split; [dec|]. left. dec. }
  exists s6, adj, trn, cad, 6%nat, (4194304 + 40960).
  split; [exact r6|]. split; [exact La|]. split; [exact Lt|]. split; [exact Lat|]. split; [exact Lta|].
  split; [apply aft_R; assumption|]. split; [apply aft_R; assumption|].
  split; [apply at_steps; vm_compute; reflexivity|]. split; [apply idle_all; vm_compute; reflexivity|].
  split; [isl|]. split; [split; dec|vm_compute; reflexivity].
Qed.
Print Assumptions conc_create_refuted.
Print Assumptions conc_delete_refuted.
Print Assumptions conc_reuse_refuted.
Print Assumptions conc_top_level_refuted.
Print Assumptions conc_adjust_refuted.
