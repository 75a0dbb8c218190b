(* What the library relies on of its own heap, without mentioning the model's operations. *)
From Verif Require Import Base Big_model Big_spec Map_model Pheap_model.

(* The heap's range [lo,hi) lies in one top-level mapping that begins at lo and carries the bitmap. *)
Record home (s : st) (n : nat) (lo hi : Z) (bm : nat) : Prop := {
  ho_live : live s n; ho_top : b_parent (bigs s n) = 0%nat; ho_alloc : b_alloc (bigs s n) = MMAP;
  ho_begin : b_begin (bigs s n) = lo; ho_end : hi <= b_end (bigs s n); ho_bm : b_subpriv (bigs s n) = bm }.

(* What the wrapped allocator may answer when the chunks at the addresses L are live. *)
Definition chunk (lo hi p : Z) : Prop := lo <= p < hi /\ (p - lo) mod 16 = 0 /\ p <> 0.
Definition fresh (lo hi : Z) (L : list Z) (p : Z) : Prop := chunk lo hi p /\ ~ In p L.

Definition drop (p : Z) (L : list Z) : list Z := filter (fun q => negb (q =? p)) L.

(* One call, from the live chunks L to L'; the caller respects malloc's rules.  Left out are a
   reallocation that fails and posix_memalign. *)
Inductive does (lo hi : Z) (L : list Z) : pop -> list Z -> Prop :=
| do_alloc r : fresh lo hi L r -> does lo hi L (PAlloc r) (r :: L)
| do_full : does lo hi L (PAlloc 0) L
| do_free p : In p L -> does lo hi L (PFree p) (drop p L)
| do_realloc_free p r : p = 0 \/ In p L -> does lo hi L (PRealloc p 0 r) (drop p L)
| do_realloc p z r : p = 0 \/ In p L -> z <> 0 -> fresh lo hi (drop p L) r -> does lo hi L (PRealloc p z r) (r :: drop p L)
| do_realloc_full z : z <> 0 -> does lo hi L (PRealloc 0 z 0) L.

(* A history: calls one after another, each made while the big allocations are as in some reachable
   forest holding the heap. *)
Inductive hist (Rs : st -> Prop) (lo hi : Z) (bm : nat) : list Z -> list (st * pop) -> list Z -> Prop :=
| hist_nil L : hist Rs lo hi bm L [] L
| hist_cons L s n o L1 l L2 : Rs s -> home s n lo hi bm -> does lo hi L o L1 -> hist Rs lo hi bm L1 l L2 ->
    hist Rs lo hi bm L ((s, o) :: l) L2.

(* [m] marks exactly the chunks at L, among all bits of the heap *)
Definition marks (lo : Z) (bm : nat) (m : bitmaps) (L : list Z) : Prop :=
  forall i, m bm i = true <-> In (lo + 16 * i) L.
