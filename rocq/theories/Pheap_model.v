(* Model of the library's own heap: src/dlmalloc-ext.c (the NOMMAP build of it).  Definitions
   only. *)
From Verif Require Import Base Big_model Map_model.

Definition PALIGN : Z := 16.                  (* PRIVATE_MALLOC_ALIGN, liballocs_private.h:131 *)
Definition INSERT : Z := 8.                   (* sizeof (struct insert) *)
Definition CEILDIV (a b : Z) : Z := (a + b - 1) / b.   (* DIVIDE_ROUNDING_UP *)

(* emulated_sbrk, dlmalloc-ext.c:281-302.  [brk] is emulated_curbrk, 0 before the first call; the
   answer None is -1 as a pointer.  Addresses and sums are modulo 2^64; increments are signed. *)
Definition emulated_sbrk (base limit brk inc : Z) : Z * option Z :=
  let old := if brk =? 0 then base else brk in
  let req := (old + inc) mod W64 in
  if ((0 <? inc) && (req <? old)) || ((inc <? 0) && (old <? req)) then (old, None)
  else
    let new := if 0 <? inc then Z.min limit req else Z.max base req in
    if new =? req then (req, Some old) else (old, None).

(* bitmap_alloc_size_bytes, dlmalloc-ext.c:109-111 *)
Definition bitmap_bytes (range : Z) : Z := CEILDIV (CEILDIV range PALIGN) 8 + INSERT.
(* where the word holding bit i is (bitmap.h, librunt: 64-bit words) *)
Definition bit_word (i : Z) : Z := i / 64 * 8.

(* the bitmaps, by the value of suballocator_private; 0 is null *)
Definition bitmaps := nat -> Z -> bool.

Section Pheap.
Variables (nb : nat) (dbg : bool).
Notation asrt := (asrt dbg).

Definition put_bit (m : bitmaps) (p : nat) (i : Z) (v : bool) : res bitmaps :=
  if Nat.eqb p 0 then UB
  else Ok (fun q j => if Nat.eqb q p && (j =? i) then v else m q j).

(* set_metadata, dlmalloc-ext.c:150-166 *)
Definition set_metadata (s : st) (m : bitmaps) (ptr : Z) : res bitmaps :=
  do n <- lookup_top_level nb s ptr ;
  do _ <- asrt (negb (Nat.eqb n 0)) ;
  if Nat.eqb n 0 then UB else
  let b := bigs s n in
  do _ <- asrt (Nat.eqb (b_alloc b) MMAP) ;
  do _ <- asrt ((ptr - b_begin b) mod PALIGN =? 0) ;
  do _ <- asrt (b_begin b <=? ptr) ;
  put_bit m (b_subpriv b) ((ptr - b_begin b) / PALIGN) true.

(* clear_metadata, dlmalloc-ext.c:175-187 *)
Definition clear_metadata (s : st) (m : bitmaps) (ptr : Z) : res bitmaps :=
  do n <- lookup_top_level nb s ptr ;
  do _ <- asrt (negb (Nat.eqb n 0) && Nat.eqb (b_alloc (bigs s n)) MMAP) ;
  if Nat.eqb n 0 then UB else
  let b := bigs s n in
  put_bit m (b_subpriv b) ((ptr - b_begin b) / PALIGN) false.

(* What the wrapped allocator was asked for and did. *)
Inductive real :=
| RNone                        (* not called *)
| RAlloc | RFree (p : Z) | RRealloc (p size : Z).

(* The calls, each with the answer r of the wrapped function (0 is null). *)
Inductive pop :=
| PAlloc (r : Z)               (* __wrap_dlmalloc, dlcalloc, dlmemalign: 192-217, 252-257 *)
| PFree (p : Z)                (* __wrap_dlfree, 218-228 *)
| PRealloc (p size r : Z)      (* __wrap_dlrealloc, 229-251 *)
| PPosix (ret p : Z).          (* __wrap_dlposix_memalign, 258-263: [p] is what is at memptr afterwards *)

(* the bitmaps after, what was asked of the wrapped allocator, the caller's answer *)
Definition pstep (s : st) (m : bitmaps) (o : pop) : res (bitmaps * real * Z) :=
  match o with
  | PAlloc r => do m' <- (if r =? 0 then Ok m else set_metadata s m r) ; Ok (m', RAlloc, r)
  | PFree p => do m' <- clear_metadata s m p ; Ok (m', RFree p, 0)
  | PRealloc p size r =>
      do m1 <- (if p =? 0 then Ok m else clear_metadata s m p) ;
      if size =? 0 then Ok (m1, RFree p, 0)
      else
        do m2 <- (if r =? 0 then Ok m1 else set_metadata s m1 r) ;
        Ok (m2, RRealloc p ((size + INSERT) mod W64), r)
  | PPosix ret p => do m' <- (if ret =? 0 then Ok m else set_metadata s m p) ; Ok (m', RAlloc, ret)
  end.
End Pheap.

(* __wrap_dlmalloc_usable_size, dlmalloc-ext.c:265-269 *)
Definition usable_size (real_ : Z) : Z := (real_ - INSERT) mod W64.
