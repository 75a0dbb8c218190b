(* Model of the generic heap index: include/generic_malloc_index.h, as the hooks of
   tools/stubgen.h:336-437 drive it.  Definitions only.

   Chunk metadata is in Insert_model; here the index answers with the address of a chunk's
   metadata word.  The underlying allocator's size function (malloc_usable_size and the like)
   is an argument.  Locks, tracing, the recently-freed list and the object cache (Cache_model)
   are left out.  The bitmap functions come from librunt, which is absent: a bitmap is a set of
   bit numbers with a length, and touching a bit beyond the length is undefined behaviour. *)
From Verif Require Import Base Big_model Big_hist Insert_model.

Definition MALLOC_ALIGN : Z := 16.            (* malloc-meta.h:14 *)
Definition NBITS : Z := 64.                   (* BITMAP_WORD_NBITS: a word is an unsigned long *)
Definition SPAN : Z := 1024.                  (* MALLOC_ALIGN * BITMAP_WORD_NBITS *)
Definition PROMOTE : Z := 131072.             (* SHOULD_PROMOTE_TO_BIGALLOC, 249-250 *)

(* struct arena_bitmap_info, generic_malloc_index.h:146-163 *)
Record info := mkInfo { i_base : Z; i_nwords : Z; i_bits : Z -> bool; i_biggest : Z; i_unprom : Z }.
Definition info0 : info := mkInfo 0 0 (fun _ => false) 0 0.

(* [h_info] maps suballocator_private ids to infos; 0 is NULL *)
Record hst := mkH { h_fo : st; h_info : nat -> info; h_next : nat }.
Definition set_info (H : hst) (i : nat) (x : info) : hst :=
  mkH (h_fo H) (fun j => if Nat.eqb j i then x else h_info H j) (h_next H).

Section Heap.
Variables (nb : nat) (biggest : Z) (dbg : bool).
Variable a : nat.                              (* the allocator *)
Notation asrt := (asrt dbg).

(* ensure_arena_has_info, generic_malloc_index.h:271-300 *)
Definition ensure_info (H : hst) (n : nat) : hst * nat :=
  let b := bigs (h_fo H) n in
  if Nat.eqb (b_subpriv b) 0 then
    let i := h_next H in
    let s := set_sub (h_fo H) n (b_sub b) i in
    (mkH s (fun j => if Nat.eqb j i then mkInfo (rdown (b_begin b) SPAN) 0 (fun _ => false) 0 0 else h_info H j) (S i), i)
  else (H, b_subpriv b).

(* arena_for_userptr, generic_malloc_index.h:192-209.  The deepest record's suballocator is set
   even in release builds where the assertion is absent. *)
Definition arena_for (H : hst) (x : Z) : res (hst * nat) :=
  do n <- find_from_root nb (h_fo H) x a true ;
  if negb (Nat.eqb n 0) then Ok (H, n) else
  do m <- find_deepest nb (h_fo H) x ;
  if Nat.eqb m 0 then UB else
  do _ <- asrt (Nat.eqb (b_sub (bigs (h_fo H) m)) 0) ;
  let s := set_sub (h_fo H) m a (b_subpriv (bigs (h_fo H) m)) in
  Ok (fst (ensure_info (mkH s (h_info H) (h_next H)) m), m).

(* arena_info_for_userptr, generic_malloc_index.h:212-219; 0 is NULL *)
Definition arena_info (H : hst) (x : Z) : res (hst * nat) :=
  do '(H1, n) <- arena_for H x ; Ok (H1, b_subpriv (bigs (h_fo H1) n)).
(* ensure_arena_info_for_userptr, 221-227 *)
Definition ensure_arena_info (H : hst) (x : Z) : res (hst * nat) :=
  do '(H1, n) <- arena_for H x ; Ok (ensure_info H1 n).

(* ensure_has_bitmap_to, generic_malloc_index.h:302-329 *)
Definition ensure_to (H : hst) (i : nat) (e : Z) : res hst :=
  do n <- find_from_root nb (h_fo H) (e - 1) a true ;
  do _ <- asrt (negb (Nat.eqb n 0)) ;
  if Nat.eqb n 0 then UB else
  let f := h_info H i in
  do _ <- asrt (rdown (b_begin (bigs (h_fo H) n)) SPAN =? i_base f) ;
  let total := (rup e SPAN - i_base f) / SPAN in
  if i_nwords f <? total then
    Ok (set_info H i (mkInfo (i_base f) total (fun k => if i_nwords f * NBITS <=? k then false else i_bits f k) (i_biggest f) (i_unprom f)))
  else Ok H.

Definition set_bit (f : info) (k : Z) (v : bool) : res info :=
  if (0 <=? k) && (k <? i_nwords f * NBITS)
  then Ok (mkInfo (i_base f) (i_nwords f) (fun j => if j =? k then v else i_bits f j) (i_biggest f) (i_unprom f))
  else UB.

(* __generic_malloc_index_insert, generic_malloc_index.h:331-430, with
   __generic_malloc_fresh_big (167-181).  Answers the address of the metadata word, which is
   then written (Insert_model.store_site). *)
Definition index_insert (H : hst) (i : nat) (ptr req usable : Z) : res (hst * Z) :=
  do H1 <- ensure_to H i (ptr + req) ;
  do n <- find_from_root nb (h_fo H1) ptr a true ;
  if Nat.eqb n 0 then UB else
  let f := h_info H1 i in
  do _ <- asrt (i_base f =? rdown (b_begin (bigs (h_fo H1) n)) SPAN) ;
  do _ <- asrt (ptr <=? i_base f + i_nwords (h_info H1 (b_subpriv (bigs (h_fo H1) n))) * SPAN) ;
  let cu := caller_usable usable in
  let f1 := mkInfo (i_base f) (i_nwords f) (i_bits f) (Z.max (i_biggest f) cu) (i_unprom f) in
  do '(s2, f2) <-
    (if PROMOTE <? usable then
       do _ <- asrt (req <=? w64 (usable - INSERT_SIZE)) ;
       do '(s, m) <- new_bigalloc nb biggest dbg (h_fo H1) ptr req 0 n (b_sub (bigs (h_fo H1) n)) ;
       if Nat.eqb m 0 then Abort else Ok (s, f1)
     else Ok (h_fo H1, mkInfo (i_base f1) (i_nwords f1) (i_bits f1) (i_biggest f1) (Z.max (i_unprom f1) cu))) ;
  do f3 <- set_bit f2 ((ptr - i_base f2) / MALLOC_ALIGN) true ;
  Ok (set_info (mkH s2 (h_info H1) (h_next H1)) i f3, insert_at ptr cu).

(* __generic_malloc_index_delete, generic_malloc_index.h:432-528.  The uncaching at 452-455 is
   in Cache_model. *)
Definition index_delete (H : hst) (i : nat) (ptr : Z) : res hst :=
  do _ <- asrt (negb (ptr =? 0)) ;
  do b <- find_from_root nb (h_fo H) ptr a false ;
  if negb (Nat.eqb b 0) then
    do '(s, _) <- delete_at nb biggest dbg (h_fo H) ptr (b_alloc (bigs (h_fo H) b)) ;
    Ok (mkH s (h_info H) (h_next H))
  else
    if Nat.eqb i 0 then UB else
    do n <- find_from_root nb (h_fo H) ptr a true ;
    let f := h_info H i in
    if dbg && Nat.eqb n 0 then UB else
    do _ <- asrt (i_base f =? rdown (b_begin (bigs (h_fo H) n)) SPAN) ;
    do _ <- asrt (i_base f <=? ptr) ;
    do f1 <- set_bit f (w64 (ptr - i_base f) / MALLOC_ALIGN) false ;
    Ok (set_info H i f1).

(* the hooks after a successful allocation and before a free, stubgen.h:346-357, 376-391,
   without lifetime policies *)
Definition do_alloc (H : hst) (ptr req usable : Z) : res (hst * Z) :=
  do '(H1, i) <- ensure_arena_info H ptr ; index_insert H1 i ptr req usable.
Definition do_free (H : hst) (ptr : Z) : res hst :=
  do '(H1, i) <- ensure_arena_info H ptr ; index_delete H1 i ptr.

(* the hooks around realloc: stubgen.h:397-419 deletes the old entry ... *)
Definition pre_realloc (H : hst) (ptr : Z) : res hst :=
  do '(H1, i) <- arena_info H ptr ; index_delete H1 i ptr.
(* ... and 420-437 with __generic_malloc_index_reinsert_after_resize,
   generic_malloc_index.h:530-578, adds the new one; [new] is 0 if realloc failed;
   [usable] is the size function's answer for the chunk now.  __notify_copy is left out. *)
Definition post_realloc (H : hst) (ptr modified old_usable req new usable : Z) : res (hst * Z) :=
  do '(H0, i0) <- arena_info H ptr ;
  do '(H1, z) <-
    (if negb (new =? 0) && negb (new =? ptr) then
       do '(H1, i) <- ensure_arena_info H0 new ; index_insert H1 i new req usable
     else if Nat.eqb i0 0 then UB else index_insert H0 i0 ptr req usable) ;
  do b <- find_from_root nb (h_fo H1) ptr a false ;
  if (new =? ptr) && (modified <? old_usable) && negb (Nat.eqb b 0) then
    do s <- truncate_end biggest dbg (h_fo H1) b (ptr + modified) ; Ok (mkH s (h_info H1) (h_next H1), z)
  else Ok (H1, z).

(* bitmap_rfind_first_set_leq_l: the greatest set bit in [lo, k], searched downwards *)
Fixpoint rfind (bits : Z -> bool) (lo k : Z) (fuel : nat) : option Z :=
  match fuel with
  | O => None
  | S g => if k <? lo then None else if bits k then Some k else rfind bits lo (k - 1) g
  end.

(* lookup_object_info_via_bitmap, generic_malloc_index.h:580-630: start, size, metadata address.
   [sizefn] is the underlying allocator's size function.  A start index outside the bitmap is
   outside librunt's contract. *)
Definition via_bitmap (f : info) (mem : Z) (sizefn : Z -> Z) : res (option (Z * Z * Z)) :=
  let start := (w64 (mem - i_base f) / MALLOC_ALIGN) mod 2 ^ 32 in
  let hidden :=
    if dbg then 0
    else let fake := rdown (w64 (mem - i_unprom f)) SPAN in
         if i_base f <? fake then NBITS * ((fake - i_base f) / SPAN) else 0 in
  if negb ((hidden <=? start) && (start <? i_nwords f * NBITS)) then UB else
  match rfind (i_bits f) hidden start (S (Z.to_nat (start - hidden))) with
  | None => Ok None
  | Some k => let o := i_base f + MALLOC_ALIGN * k in
              Ok (Some (o, caller_usable (sizefn o), insert_for_chunk o (sizefn o)))
  end.

(* what a query answers: nothing known there; another allocator is in charge; the allocation is
   not indexed; or the start, the size and the address of the metadata *)
Inductive ans := Unknown | Other (n : nat) | Unindexed | Chunk (base size meta : Z).

(* __generic_malloc_get_info, generic_malloc_index.h:660-713 *)
Definition get_info (H : hst) (sizefn : Z -> Z) (x : Z) (big : nat) : res (hst * ans) :=
  let b := bigs (h_fo H) big in
  if negb (Nat.eqb big 0) && Nat.eqb (b_alloc b) a then
    let cu := b_end b - b_begin b in Ok (H, Chunk (b_begin b) cu (insert_at (b_begin b) (cu + INSERT_SIZE)))
  else
    do '(H1, i) <- arena_info H x ;
    if Nat.eqb i 0 then Ok (H1, Unindexed) else
    do r <- via_bitmap (h_info H1 i) x sizefn ;
    match r with
    | None => Ok (H1, Unindexed)
    | Some (o, sz, m) => Ok (H1, Chunk o (caller_usable sz) m)
    end.

(* __liballocs_get_alloc_info, liballocs.h:605-655, for an address the page index knows;
   __liballocs_leaf_allocator_for is Big_model.leaf_allocator *)
Definition query (H : hst) (sizefn : Z -> Z) (x : Z) : res (hst * ans) :=
  do n <- leaf_bigalloc nb (h_fo H) x ;
  if Nat.eqb n 0 then Ok (H, Unknown) else
  let b := bigs (h_fo H) n in
  let al := if Nat.eqb (b_sub b) 0 then b_alloc b else b_sub b in
  if Nat.eqb al a then get_info H sizefn x n else Ok (H, Other n).
End Heap.
