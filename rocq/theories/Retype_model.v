(* Model of the setting and getting of heap types end to end: the heap index (Heap_model) over
   a byte-addressed memory that holds the metadata words (Insert_model), with
   __liballocs_set_alloc_type and __liballocs_add_type_to_block of src/query.c.
   Definitions only.

   The object cache (Cache_model) and lifetime policies are left out.  NDEBUG is one setting:
   it switches off the assertions and switches on the replacement of sites by types. *)
From Verif Require Import Base Big_model Big_hist Insert_model Heap_model.

(* memory, one byte per address; a metadata word is eight bytes, low byte first (x86-64) *)
Definition mem := Z -> Z.
Fixpoint loadn (n : nat) (m : mem) (p : Z) : Z :=
  match n with O => 0 | S k => m p + 256 * loadn k m (p + 1) end.
Fixpoint storen (n : nat) (m : mem) (p v : Z) : mem :=
  match n with
  | O => m
  | S k => fun x => if x =? p then v mod 256 else storen k m (p + 1) (v / 256) x
  end.
Definition load (m : mem) (p : Z) : Z := loadn 8 m p.
Definition store (m : mem) (p v : Z) : mem := storen 8 m p v.

(* [r_un]: the list of unrecognised heap allocation sites *)
Record rst := mkR { r_h : hst; r_m : mem; r_un : list Z }.

(* what the allocator at a leaf offers for set_type when it is not the modelled heap:
   nothing (most allocators), abort() (ld-so-malloc.c:24-28) *)
Inductive slot := NoSetter | Aborting.

(* the type functions __liballocs_add_type_to_block uses: make_precise (the identity for a type
   without one), pos_maxoff, and the array and union constructors; 0 is NULL *)
Record tys := mkT { precise : Z -> Z -> Z -> Z; maxoff : Z -> Z; array : Z -> Z -> Z; union : Z -> Z -> Z }.

Section Retype.
Variables (nb : nat) (biggest : Z) (dbg : bool) (a : nat).
Variable T : sites.
Variable slots : nat -> slot.
Variable others : nat -> Z -> Z.      (* the type another allocator answers for an address; 0 is NULL *)
Notation asrt := (asrt dbg).
Definition nd := negb dbg.

(* the write at generic_malloc_index.h:374-375, after the index has been updated *)
Definition note_site (m : mem) (z caller : Z) : mem := store m z (store_site (load m z) caller).

(* the hooks of stubgen.h:346-437 *)
Definition r_alloc (s : rst) (ptr req usable caller : Z) : res rst :=
  do '(H, z) <- do_alloc nb biggest dbg a (r_h s) ptr req usable ;
  Ok (mkR H (note_site (r_m s) z caller) (r_un s)).
Definition r_free (s : rst) (ptr : Z) : res rst :=
  do H <- do_free nb biggest dbg a (r_h s) ptr ; Ok (mkR H (r_m s) (r_un s)).
Definition r_pre (s : rst) (ptr : Z) : res rst :=
  do H <- pre_realloc nb biggest dbg a (r_h s) ptr ; Ok (mkR H (r_m s) (r_un s)).
Definition r_post (s : rst) (ptr modified old_usable req new usable caller : Z) : res rst :=
  do '(H, z) <- post_realloc nb biggest dbg a (r_h s) ptr modified old_usable req new usable ;
  Ok (mkR H (note_site (r_m s) z caller) (r_un s)).

(* __liballocs_get_alloc_info (liballocs.h:605-655) asking for start, size and type: the index is
   asked, and the type is read from the metadata word by
   extract_and_output_alloc_site_and_type, which may write the word back. *)
Inductive reply := Nothing | Elsewhere (n : nat) | NotIndexed | Found (base size : Z) (r : answer).
Definition at_word (s : rst) (z : Z) : rst * answer :=
  let '(i, r) := extract nd T (mkI (load (r_m s) z) (r_un s)) in
  (mkR (r_h s) (if ins i =? load (r_m s) z then r_m s else store (r_m s) z (ins i)) (unrec i), r).
Definition r_query (s : rst) (sizefn : Z -> Z) (x : Z) : res (rst * reply) :=
  do '(H, r) <- query nb dbg a (r_h s) sizefn x ;
  let s1 := mkR H (r_m s) (r_un s) in
  match r with
  | Unknown => Ok (s1, Nothing)
  | Other n => Ok (s1, Elsewhere n)
  | Unindexed => Ok (s1, NotIndexed)
  | Chunk b sz z => let '(s2, r2) := at_word s1 z in Ok (s2, Found b sz r2)
  end.

(* __liballocs_get_type, alias __liballocs_get_alloc_type (query.c:66-80): NULL on any error *)
Definition type_at (s : rst) (sizefn : Z -> Z) (x : Z) : res (rst * Z) :=
  do '(s1, r) <- r_query s sizefn x ;
  Ok (s1, match r with Found _ _ r2 => if a_err r2 then 0 else a_type r2 | Elsewhere n => others n x | _ => 0 end).

(* __generic_malloc_set_type (generic_malloc_index.h:715-732) with lookup_object_info (634-658);
   the flag is "no error".  Unlike get_info it does not ask whether the leaf record is the
   allocation itself. *)
Definition set_word (s : rst) (z u : Z) : rst :=
  mkR (r_h s) (store (r_m s) z (ins (set_type T (mkI (load (r_m s) z) (r_un s)) u))) (r_un s).
Definition heap_set (s : rst) (sizefn : Z -> Z) (x u : Z) : res (rst * bool) :=
  do '(H1, n) <- arena_for nb dbg a (r_h s) x ;
  if b_begin (bigs (h_fo H1) 1) =? 0 then Ok (mkR H1 (r_m s) (r_un s), false) else
  do '(H2, i) <- arena_info nb dbg (b_sub (bigs (h_fo H1) n)) H1 x ;
  let s2 := mkR H2 (r_m s) (r_un s) in
  if Nat.eqb i 0 then Ok (s2, false) else
  do r <- via_bitmap dbg (h_info H2 i) x sizefn ;
  match r with
  | None => Ok (s2, false)
  | Some (_, _, z) => Ok (set_word s2 z u, true)
  end.

(* __liballocs_set_alloc_type, query.c:146-159: errors are ignored, but in debug builds the type
   must read back *)
Definition r_set (s : rst) (sizefn : Z -> Z) (x u : Z) : res rst :=
  do n <- leaf_bigalloc nb (h_fo (r_h s)) x ;
  if Nat.eqb n 0 then Ok s else
  let b := bigs (h_fo (r_h s)) n in
  let l := if Nat.eqb (b_sub b) 0 then b_alloc b else b_sub b in
  if Nat.eqb l a then
    do '(s1, _) <- heap_set s sizefn x u ;
    if dbg then do '(s2, t) <- type_at s1 sizefn x ; do _ <- asrt (t =? u) ; Ok s2 else Ok s1
  else match slots l with NoSetter => Ok s | Aborting => Abort end.

(* __liballocs_add_type_to_block, query.c:237-267.  A null set_type is called without being
   tested for; dividing by a zero pos_maxoff is undefined. *)
Definition add_type (Y : tys) (s : rst) (sizefn : Z -> Z) (x t : Z) : res (rst * Z) :=
  do n <- leaf_bigalloc nb (h_fo (r_h s)) x ;
  if Nat.eqb n 0 then Ok (s, 1) else
  let b := bigs (h_fo (r_h s)) n in
  let l := if Nat.eqb (b_sub b) 0 then b_alloc b else b_sub b in
  if Nat.eqb l a then
    do '(s1, r) <- r_query s sizefn x ;
    match r with
    | Found _ sz r2 =>
        if a_type r2 =? 0 then Ok (s1, 2) else
        let old := precise Y (a_type r2) x sz in
        if maxoff Y t =? 0 then UB else
        let new := array Y t (sz / maxoff Y t) in
        if new =? 0 then Ok (s1, 3) else
        let u := union Y old new in
        do '(s2, ok) <- heap_set s1 sizefn x u ;
        do _ <- asrt ok ;
        do '(s3, got) <- type_at s2 sizefn x ;
        do _ <- asrt (got =? u) ; Ok (s3, 0)
    | _ => Ok (s1, 2)
    end
  else if others l x =? 0 then Ok (s, 2) else
  if maxoff Y t =? 0 then UB else
  match slots l with NoSetter => UB | Aborting => Abort end.
End Retype.
