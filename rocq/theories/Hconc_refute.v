(* C70, what threads cannot rely on: schedules of two threads, each call within its contract. *)
From Verif Require Import Base Conc_model Conc_spec Hconc_model Hconc_spec Hconc_props.
Import HcEx.

(* A lookup reads the bitmap's address; an allocation further up makes the bitmap grow, and
   the private realloc may move it; the lookup then reads freed memory. *)
Theorem hconc_grow_refuted : exists s0 x p c,
  ready B 1 s0 /\ marked B 1 s0 p = true /\ fits B (marked B 1 s0) x /\
  steps (hcode false B j5) (start_c s0 (two [HLook p] [x])) c /\ tstep (hcode false B j5) 0 c = Some UB.
Proof.
  exists s02, (HAlloc (B + 4096) 64 80), (B + 32), (at_ false s02 [HLook (B + 32)] [HAlloc (B + 4096) 64 80] (r0 7 ++ r1 12)).
  split; [exact ready02|]. split; [vm_compute; reflexivity|]. split; [split; [at16|lia]|].
  split; [apply at_steps; vm_compute; reflexivity|vm_compute; reflexivity].
Qed.

(* Two threads make the first allocations in an arena.  Each finds that it has no info and
   makes one; the chunk that went into the first info is forgotten. *)
Theorem hconc_first_lost_refuted : exists s0 p q c dbg,
  h_priv s0 = 0%nat /\ chunk_at B p /\ chunk_at B q /\ p <> q /\
  steps (hcode dbg B j5) (start_c s0 (two [HAlloc p 64 80] [HAlloc q 64 80])) c /\
  idle2 c = true /\ marked B (h_priv (sh c)) (sh c) p = true /\ marked B (h_priv (sh c)) (sh c) q = false /\
  exists s', run (hcode dbg B j5 (HLook (q + 8))) (sh c) = Ok (s', p).
Proof.
  exists s00, (B + 32), (B + 128), (at_ true s00 [HAlloc (B + 32) 64 80] [HAlloc (B + 128) 64 80] (r0 6 ++ r1 31 ++ r0 30)), true.
  split; [reflexivity|]. split; [at16|]. split; [at16|]. split; [discriminate|]. split; [apply at_steps; vm_compute; reflexivity|].
  split; [vm_compute; reflexivity|]. split; [vm_compute; reflexivity|]. split; [vm_compute; reflexivity|].
  match goal with |- exists s', ?x = _ => assert (E : match x with Ok (_, r) => r =? B + 32 | _ => false end = true) by (vm_compute; reflexivity);
    destruct x as [[s' r]| | |]; try discriminate; apply Z.eqb_eq in E; rewrite E; eauto end.
Qed.

(* In a debug build the same race may abort: both threads find the arena without a
   suballocator, and the slower one asserts that it still has none. *)
Theorem hconc_first_abort_refuted : exists s0 p q c,
  h_priv s0 = 0%nat /\ chunk_at B p /\ chunk_at B q /\ p <> q /\
  steps (hcode true B j5) (start_c s0 (two [HAlloc p 64 80] [HAlloc q 64 80])) c /\ tstep (hcode true B j5) 0 c = Some Abort.
Proof.
  exists s00, (B + 32), (B + 128), (at_ true s00 [HAlloc (B + 32) 64 80] [HAlloc (B + 128) 64 80] (r0 2 ++ r1 5 ++ r0 1)).
  split; [reflexivity|]. split; [at16|]. split; [at16|]. split; [discriminate|]. split; [apply at_steps; vm_compute; reflexivity|vm_compute; reflexivity].
Qed.

(* The info is published before it is filled in: another thread's call uses fields which
   have never been written. *)
Theorem hconc_unset_refuted : exists s0 p q c,
  h_priv s0 = 0%nat /\ chunk_at B p /\ chunk_at B q /\ p <> q /\
  steps (hcode false B j5) (start_c s0 (two [HAlloc p 64 80] [HAlloc q 64 80])) c /\ tstep (hcode false B j5) 1 c = Some UB.
Proof.
  exists s00, (B + 32), (B + 128), (at_ false s00 [HAlloc (B + 32) 64 80] [HAlloc (B + 128) 64 80] (r0 8 ++ r1 5)).
  split; [reflexivity|]. split; [at16|]. split; [at16|]. split; [discriminate|]. split; [apply at_steps; vm_compute; reflexivity|vm_compute; reflexivity].
Qed.

Print Assumptions hconc_grow_refuted.
Print Assumptions hconc_first_lost_refuted.
Print Assumptions hconc_first_abort_refuted.
Print Assumptions hconc_unset_refuted.
