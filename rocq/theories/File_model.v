(* Model of how loaded files are recorded: src/allocators/static-file.c:112-568,
   static-segment.c:78-193, static-section.c:33-125, on top of the big-allocation forest.
   Definitions only.

   librunt (absent) calls back for each LOAD segment and each section of a file while it is being
   loaded; taken to be all segments, then all sections, in order.  Addresses do not wrap.  Loading
   of the metadata object, tracing, and the dynamic linker's heap (see Linear_model) are left out. *)
From Verif Require Import Base Big_model Big_hist Map_model.

Definition FILE : nat := 5.                   (* &__static_file_allocator *)
Definition SEGM : nat := 6.                   (* &__static_segment_allocator *)
Definition SECT : nat := 7.                   (* &__static_section_allocator *)
Definition SYMB : nat := 8.                   (* &__static_symbol_allocator *)

(* A file as loaded: l_addr; p_vaddr and p_memsz of its LOAD segments; sh_addr and sh_size of the
   sections notified; its metadata structure (a private-data id). *)
Record obj := mkObj { o_base : Z; o_segs : list (Z * Z); o_secs : list (Z * Z); o_meta : nat }.

(* vaddr_bounds_cb, static-file.c:120-143, from (uintptr_t) -1 and 0 *)
Fixpoint bounds (l : list (Z * Z)) (lo lim : Z) : Z * Z :=
  match l with
  | [] => (lo, lim)
  | (v, sz) :: r => bounds r (if v <? lo then v else lo) (if lim <? v + sz then v + sz else lim)
  end.
Definition NOLOW : Z := W64 - 1.

Section File.
Variables (nb : nat) (biggest : Z) (dbg : bool).
Notation asrt := (asrt dbg).
Notation find_from_root := (find_from_root nb).
Notation new_bigalloc := (new_bigalloc nb biggest dbg).

(* __liballocs_get_memory_mapping, src/query.c:205-225, as far as the record it answers with: one
   without a mapping sequence is a pool of the private malloc.  That the sequence has an entry for
   the address is seq_ok_contiguous (Map_props). *)
Definition mapping_of (s : st) (a : Z) : res nat :=
  do n <- lookup_top_level nb s a ;
  if Nat.eqb n 0 then Ok 0%nat
  else do _ <- asrt (Nat.eqb (b_alloc (bigs s n)) MMAP) ;
       Ok (if Nat.eqb (b_priv (bigs s n)) 0 then 0%nat else n).

(* plug_hole_or_abort, static-file.c:277-404: the effect on the forest.  [kernel]: whether the
   kernel accepts the mapping that fills the hole.  That the sequences of the two mappings and of
   the filler are joined by augmenting the lower one (374-398) is left out, as are the
   assertions that the file is the dynamic linker. *)
Definition plug (s : st) (lo hi : nat) (kernel : bool) : res st :=
  let e := b_end (bigs s lo) in
  let b := b_begin (bigs s hi) in
  do _ <- asrt (e <? b) ;
  if biggest <? (b - e) mod W64 then Abort
  else if negb (forallb (fun q => Nat.eqb (pidx s q) 0) (zrange (PAGENUM e) (PAGENUM b - PAGENUM e))) then Abort
  else if negb kernel then Abort
  else
    let upper_end := b_end (bigs s hi) in
    do '(s1, ok) <- delete_at nb biggest dbg s b MMAP ;
    do _ <- asrt ok ;
    adjust_end biggest dbg s1 lo upper_end.

(* __static_segment_allocator_notify_define_segment, static-segment.c:87-151.  [data]:
   executable_data_segment_start_addr. *)
Definition define_segment (s : st) (base data : Z) (g : Z * Z) : res st :=
  let a := base + fst g in
  do f <- find_from_root s a FILE false ;
  if Nat.eqb f 0 then Abort else
  do '(s1, b) <- new_bigalloc s a (snd g) 0 f SEGM ;
  if a =? data then
    let p := b_parent (bigs s1 b) in
    do _ <- asrt (negb (Nat.eqb p 0)) ;
    do _ <- asrt (negb (Nat.eqb (b_parent (bigs s1 p)) 0)) ;
    do _ <- asrt (b_end (bigs s1 p) <=? b_end (bigs s1 (b_parent (bigs s1 p)))) ;
    do s2 <- adjust_end biggest dbg s1 b (b_end (bigs s1 p)) ;
    Ok (set_sub s2 b SYMB (b_subpriv (bigs s2 b)))
  else Ok s1.

(* __static_section_allocator_notify_define_section and _ensure_big, static-section.c:33-74 *)
Definition define_section (s : st) (base : Z) (c : Z * Z) : res st :=
  if 0 <? snd c then
    let a := base + fst c in
    do already <- find_from_root s a SECT false ;
    if negb (Nat.eqb already 0) then Ok s else
    do g <- find_from_root s a SEGM false ;
    if Nat.eqb g 0 then Abort else
    do '(s1, b) <- new_bigalloc s a (snd c) 0 g SECT ;
    Ok (set_sub s1 b SYMB (b_subpriv (bigs s1 b)))
  else Ok s.

Fixpoint each (f : st -> Z * Z -> res st) (s : st) (l : list (Z * Z)) : res st :=
  match l with [] => Ok s | x :: r => do s1 <- f s x ; each f s1 r end.

(* __static_file_allocator_notify_load, static-file.c:407-518.  [brkmap], [brk]:
   brk_mapping_bigalloc and __brk_bigalloc, 0 if not yet there. *)
Definition load (s : st) (o : obj) (data : Z) (brkmap brk : nat) (kernel : bool) : res st :=
  let '(low, lim) := bounds (o_segs o) NOLOW 0 in
  do _ <- asrt (negb (low =? NOLOW)) ;
  do lo <- mapping_of s (o_base o + low) ;
  do hi <- mapping_of s (o_base o + lim - 1) ;
  if Nat.eqb lo 0 then Abort else if Nat.eqb hi 0 then Abort else
  do s0 <- (if Nat.eqb hi lo then Ok s else plug s lo hi kernel) ;
  let size := (o_base o + lim - b_begin (bigs s0 lo)) mod W64 in
  do '(s1, f) <- new_bigalloc s0 (b_begin (bigs s0 lo)) size 0 lo FILE ;
  let s2 := set_sub s1 f SEGM (b_subpriv (bigs s1 f)) in
  do s3 <- each (fun s g => define_segment s (o_base o) data g) s2 (o_segs o) ;
  do s4 <- each (fun s c => define_section s (o_base o) c) s3 (o_secs o) ;
  let s5 := set_priv s4 f (o_meta o) in
  if Nat.eqb lo brkmap then
    let e := b_begin (bigs s5 brkmap) + size in
    do _ <- asrt (e <? b_begin (bigs s5 brk)) ;
    pre_extend nb biggest dbg s5 brk e
  else Ok s5.

(* __static_file_allocator_notify_unload, static-file.c:543-568.  Of a metadata structure: the file
   name; and whether a metadata object was found (meta_obj_handle; dlclose of a null handle is
   undefined).  [k] is the record looked at; record 0, which the loop also visits, is never used. *)
Variables (name : nat -> Z) (handle : nat -> bool).
Fixpoint unload_from (fuel : nat) (k : nat) (s : st) (nm : Z) : res st :=
  match fuel with
  | O => Ok s
  | S fuel' =>
      do s1 <-
        (if in_use (bigs s k) && Nat.eqb (b_alloc (bigs s k)) FILE then
           if Nat.eqb (b_priv (bigs s k)) 0 then UB
           else if name (b_priv (bigs s k)) =? nm then
             if negb (handle (b_priv (bigs s k))) then UB
             else do '(s', _) <- delete_at nb biggest dbg s (b_begin (bigs s k)) FILE ; Ok s'
           else Ok s
         else Ok s) ;
      unload_from fuel' (S k) s1 nm
  end.
Definition unload (s : st) (nm : Z) : res st := unload_from (nb - 1) 1 s nm.

(* get_info of the three allocators, static-file.c:575-588, static-segment.c:171-184,
   static-section.c:76-92: start, size and site of the record.  [words m]: the words of the
   struct allocs_file_metadata (allocmeta.h:490-506), whose last member, after six words, is the
   struct file_metadata; [ls]: which word of the latter is load_site.  The segment and section
   allocators take the pointer for one to a struct file_metadata. *)
Variables (words : nat -> list Z) (ls : nat).
Definition extent (s : st) (b : nat) : Z * Z := (b_begin (bigs s b), b_end (bigs s b) - b_begin (bigs s b)).
Definition file_info (s : st) (b : nat) : Z * Z * Z :=
  (extent s b, nth (6 + ls) (words (b_priv (bigs s b))) 0).
Definition segment_info (s : st) (b : nat) : Z * Z * Z :=
  (extent s b, nth ls (words (b_priv (bigs s (b_parent (bigs s b))))) 0).
Definition section_info (s : st) (b : nat) : Z * Z * Z :=
  (extent s b, nth ls (words (b_priv (bigs s (b_parent (bigs s (b_parent (bigs s b))))))) 0).
End File.
