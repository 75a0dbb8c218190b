(* Model of stack allocation by alloca: the inline helpers of include/liballocs_cil_inlines.h:52-170
   and src/allocators/alloca.c, with the frame records of src/allocators/stackframe.c:128-171.
   Definitions only.

   A frame that has called alloca has a record in the forest of big allocations, whose
   suballocator is the alloca allocator.  Here such records are a list; creating, extending
   downwards, deleting and looking up records is the subject of Big_model, and is taken to have
   the effect proved there (big_create_exact, big_truncate_begin_exact and so on).  Chunks too big
   for the bitmap alone are also records of their own, below the frame's: [r_prom].
   Memory is a function from multiples of 8 to words.  Locks and tracing are left out. *)
From Verif Require Import Base Big_model Insert_model Heap_model.

Definition HEADER : Z := 8.              (* ALLOCA_HEADER_SIZE, liballocs_cil_inlines.h:67-70 *)
Definition TRAILER : Z := 8.             (* ALLOCA_TRAILER_SIZE, 52-58, without PRECISE_REQUESTED_ALLOCSIZE *)
Definition LIMIT : Z := 33554431.        (* BIGGEST_SANE_ALLOCA, alloca.c:19 *)

(* __liballocs_alloca_size, liballocs_cil_inlines.h:121-141; ALLOCA_ALIGN is MALLOC_ALIGN, 16.
   Insert_model.pad_to_align is the same macro. *)
Definition alloca_size (orig : Z) : Z :=
  w64 (pad_to_align HEADER 16 + pad_to_align (w64 (orig + TRAILER)) 16).

(* the pointer arithmetic of __liballocs_notify_and_adjust_alloca, 144-157: the pointer given to
   the program, and the size recorded in the word before it *)
Definition user_of (allocated : Z) : Z := pad_to_align (w64 (allocated + HEADER)) 16.
Definition usable_of (allocated tweaked : Z) : Z := w64 (tweaked - w64 (user_of allocated - allocated)).

Record frec := mkR { r_begin : Z; r_end : Z; r_info : info; r_prom : list (Z * Z) }.
Record ast := mkS { s_recs : list frec; s_mem : Z -> Z }.

Definition in_rec (x : Z) (r : frec) : bool := (r_begin r <=? x) && (x <? r_end r).
(* the record containing an address, and those before and after it in the list *)
Fixpoint pick (x : Z) (l : list frec) : option (list frec * frec * list frec) :=
  match l with
  | [] => None
  | r :: t => if in_rec x r then Some ([], r, t) else
              match pick x t with Some (h, q, t') => Some (r :: h, q, t') | None => None end
  end.

Definition wr (m : Z -> Z) (x v : Z) : Z -> Z := fun y => if y =? x then v else m y.
(* memset(p, 0, n), for word-aligned p and n *)
Definition zero (m : Z -> Z) (p n : Z) : Z -> Z := fun y => if (p <=? y) && (y <? p + n) then 0 else m y.
(* usable_size, alloca.c:22-26 *)
Definition usable (m : Z -> Z) (p : Z) : Z := m (p - 8).

(* bitmap_find_first_set1_geq_l (librunt): the least set bit at or above k; fuel is how many bits
   remain *)
Fixpoint ffind (bits : Z -> bool) (k : Z) (fuel : nat) : option Z :=
  match fuel with
  | O => None
  | S g => if bits k then Some k else ffind bits (k + 1) g
  end.
Definition find_geq (f : info) (k : Z) : option Z := ffind (i_bits f) k (Z.to_nat (i_nwords f * NBITS - k)).

Section Alloca.
Variable dbg : bool.
Notation asrt := (asrt dbg).

(* realloc_bitmap_prepend, alloca.c:152-188 *)
Definition prepend (f : info) (nw nbase : Z) : res info :=
  if i_nwords f <? nw then
    let added := nw - i_nwords f in
    let base := if i_base f =? 0 then nbase else i_base f - added * SPAN in
    do _ <- asrt ((i_base f =? 0) || (base =? nbase)) ;
    Ok (mkInfo base nw (fun k => if k <? added * NBITS then false else i_bits f (k - added * NBITS)) (i_biggest f) (i_unprom f))
  else Ok f.

(* first_chunk_addr, alloca.c:189-199 *)
Definition first_chunk (f : info) : option Z :=
  match find_geq f 0 with Some k => Some (i_base f + 16 * k) | None => None end.
Definition oeqb (x y : option Z) : bool :=
  match x, y with Some a, Some b => a =? b | None, None => true | _, _ => false end.

(* ensure_arena_covers_addr, alloca.c:200-243.  The bitmap is null until it has words. *)
Definition cover (r : frec) (addr : Z) : res frec :=
  let f := r_info r in
  do _ <- asrt ((i_base f =? 0) || (i_base f =? rdown (r_begin r) SPAN)) ;
  if (0 <? i_nwords f) && (r_begin r <=? addr) then Ok r else
  let b := Z.min (r_begin r) addr in
  let nbase := rdown b SPAN in
  let nalign := (rup (r_end r) SPAN - nbase) / 16 in
  do f' <- prepend f ((nalign + 63) / 64) nbase ;
  do _ <- asrt (i_base f' =? nbase) ;
  do _ <- asrt (oeqb (first_chunk f) (first_chunk f')) ;
  Ok (mkR b (r_end r) f' (r_prom r)).

(* __generic_malloc_index_insert for the alloca allocator: generic_malloc_index.h:302-430.
   Answers the address of the metadata word. *)
Definition insert (recs : list frec) (m : Z -> Z) (ptr req : Z) : res (list frec * Z) :=
  match pick (ptr + req - 1) recs, pick ptr recs with
  | None, _ => if dbg then Abort else UB
  | _, None => UB
  | Some (_, r1, _), Some (h, r, t) =>
      let f := r_info r in
      do _ <- asrt (rdown (r_begin r1) SPAN =? i_base f) ;
      let total := (rup (ptr + req) SPAN - i_base f) / SPAN in
      let f0 := if i_nwords f <? total
                then mkInfo (i_base f) total (fun k => if i_nwords f * NBITS <=? k then false else i_bits f k) (i_biggest f) (i_unprom f)
                else f in
      do _ <- asrt (i_base f0 =? rdown (r_begin r) SPAN) ;
      do _ <- asrt (ptr <=? i_base f0 + i_nwords f0 * SPAN) ;
      let us := usable m ptr in
      let cu := caller_usable us in
      let big := PROMOTE <? us in
      do _ <- asrt (negb big || (req <=? w64 (us - INSERT_SIZE))) ;
      let f1 := mkInfo (i_base f0) (i_nwords f0) (i_bits f0) (Z.max (i_biggest f0) cu)
                       (if big then i_unprom f0 else Z.max (i_unprom f0) cu) in
      let prom := if big then (ptr, ptr + req) :: r_prom r else r_prom r in
      do f2 <- set_bit f1 ((ptr - i_base f1) / 16) true ;
      Ok (h ++ mkR (r_begin r) (r_end r) f2 prom :: t, insert_at ptr cu)
  end.

(* what a query answers: no frame record there; an error; or the start, the size and the address
   of the metadata *)
Inductive aans := NoFrame | Unindexed | Chunk (base size meta : Z).

(* __alloca_get_info, alloca.c:50-81, reached from __liballocs_get_alloc_info with the innermost
   record.  The record of a promoted chunk has no suballocator_private.  The assertion in
   alloca_arena_for_userptr (37) reads the word before the queried address; an unaligned read is
   left out. *)
Definition query (s : ast) (x : Z) : res aans :=
  match pick x (s_recs s) with
  | None => Ok NoFrame
  | Some (_, r, _) =>
      if existsb (fun p => (fst p <=? x) && (x <? snd p)) (r_prom r) then (if dbg then Abort else Ok Unindexed)
      else
        do _ <- asrt (negb (x mod 8 =? 0) || (s_mem s (x - 8) <=? LIMIT)) ;
        do a <- via_bitmap dbg (r_info r) x (usable (s_mem s)) ;
        match a with
        | None => Ok Unindexed
        | Some (o, sz, meta) => Ok (Chunk o (caller_usable sz) meta)
        end
  end.

(* An instrumented call of alloca(orig): __liballocs_notify_and_adjust_alloca,
   liballocs_cil_inlines.h:144-170, given what alloca(alloca_size(orig)) returned; with
   __alloca_allocator_notify, alloca.c:250-290, and
   __stackframe_allocator_find_or_create_bigalloc, stackframe.c:128-171.
   [ctr] is the address of the frame's counter, [bp] its frame address. *)
Definition do_alloca (s : ast) (allocated orig site ctr bp : Z) : res (ast * Z) :=
  let tweaked := alloca_size orig in
  let user := user_of allocated in
  let us := usable_of allocated tweaked in
  let m1 := wr (zero (s_mem s) allocated tweaked) (user - 8) us in
  let m2 := wr m1 ctr (w64 (m1 ctr + us)) in
  do _ <- asrt (usable m2 user <=? LIMIT) ;
  do ' (h, r, t) <-
    match pick ctr (s_recs s) with
    | Some hrt => Ok hrt
    | None => if user <? bp then Ok ([], mkR user bp info0 [], s_recs s) else UB
    end ;
  do r1 <- cover r user ;
  do ' (recs, meta) <- insert (h ++ r1 :: t) m2 user orig ;
  let s' := mkS recs (wr m2 meta (store_site (m2 meta) site)) in
  do _ <- (if dbg then
             do a <- query s' user ;
             match a with Chunk o _ _ => asrt (o =? user) | _ => Abort end
           else Ok tt) ;
  Ok (s', user).

(* __generic_malloc_index_delete for a chunk of this frame, generic_malloc_index.h:432-528.
   A chunk outside the frame's record (arena_info_for_userptr would find another one, or none)
   is taken as undefined. *)
Definition delete (r : frec) (ptr : Z) : res frec :=
  if negb (in_rec ptr r) then UB else
  if existsb (fun p => (fst p <=? ptr) && (ptr <? snd p)) (r_prom r) then
    Ok (mkR (r_begin r) (r_end r) (r_info r) (filter (fun p => negb ((fst p <=? ptr) && (ptr <? snd p))) (r_prom r)))
  else
    let f := r_info r in
    do _ <- asrt (i_base f =? rdown (r_begin r) SPAN) ;
    do _ <- asrt (i_base f <=? ptr) ;
    do f1 <- set_bit f (w64 (ptr - i_base f) / 16) false ;
    Ok (mkR (r_begin r) (r_end r) f1 (r_prom r)).

(* the loop of __liballocs_unindex_stack_objects_counted_by, alloca.c:116-145.  Answers the chunks
   visited, each of which is also removed from the object cache, and whether the warning about too
   many bytes is printed. *)
Fixpoint unindex_loop (fuel : nat) (r : frec) (m : Z -> Z) (cur total done_ : Z) : res (list Z * bool) :=
  match fuel with
  | O => Fuel
  | S g =>
      match find_geq (r_info r) (w64 (cur + 1)) with
      | None => Ok ([], false)
      | Some k =>
          let chunk := i_base (r_info r) + k * 16 in
          let n := usable m chunk in
          do r' <- delete r chunk ;
          do _ <- asrt (n <? LIMIT) ;
          let d := w64 (done_ + n) in
          if total <=? d then Ok ([chunk], total <? d)
          else do ' (l, w) <- unindex_loop g r' m k total d ; Ok (chunk :: l, w)
      end
  end.

(* leaving a frame: __liballocs_unindex_stack_objects_counted_by, alloca.c:90-150.
   [sp] is the stack pointer inside the call.  The final uncaching (147) is left out; if the
   counter is zero the size given to it is an uninitialised variable. *)
Definition leave (s : ast) (ctr sp : Z) : res (ast * (list Z * bool)) :=
  match pick ctr (s_recs s) with
  | None => if s_mem s ctr =? 0 then Ok (s, ([], false)) else Abort
  | Some (h, r, t) =>
      do lw <- (if s_mem s ctr =? 0 then Ok ([], false)
                else do r1 <- cover r sp ;
                     let f := r_info r1 in
                     do _ <- asrt ((i_base f =? 0) || (i_base f =? rdown (r_begin r1) SPAN)) ;
                     unindex_loop (S (Z.to_nat (i_nwords f * NBITS))) r1 (s_mem s)
                       (w64 (w64 (sp - i_base f) / 16 - 1)) (s_mem s ctr) 0) ;
      Ok (mkS (h ++ t) (s_mem s), lw)
  end.

(* entering an instrumented frame: its counter starts at zero *)
Definition enter (s : ast) (ctr : Z) : ast := mkS (s_recs s) (wr (s_mem s) ctr 0).
(* the program's own stores *)
Definition poke (s : ast) (x v : Z) : ast := mkS (s_recs s) (wr (s_mem s) x v).
End Alloca.
