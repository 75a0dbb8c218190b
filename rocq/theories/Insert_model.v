(* Model of the per-chunk metadata word ("insert"): include/malloc-meta.h, and of its use
   in include/generic_malloc_index.h and tools/stubgen.h.  Definitions only. *)
From Verif Require Import Base Bits.

(* size_t / unsigned long arithmetic *)
Definition w64 (x : Z) : Z := x mod 2 ^ 64.

(* sizeof (struct insert): one 64-bit word, malloc-meta.h:57-76 *)
Definition INSERT_SIZE : Z := 8.

(* PAD_TO_ALIGN, malloc-meta.h:33-35, on size_t *)
Definition pad_to_align (n a : Z) : Z := if n mod a =? 0 then n else w64 (n + a - n mod a).

(* CHUNK_SIZE_WITH_TRAILER(sz, struct insert, void* ) as the pre_alloc hook uses it,
   malloc-meta.h:39-40 and tools/stubgen.h:367-369 *)
Definition chunk_size_with_trailer (sz : Z) : Z := pad_to_align (w64 (sz + INSERT_SIZE)) 8.

(* caller_usable_size_for_chunk_and_usable_size, malloc-meta.h:81-85; also
   allocsize_to_usersize, generic_malloc_index.h:141 *)
Definition caller_usable (usable : Z) : Z := w64 (usable - INSERT_SIZE).

(* insert_for_chunk_and_caller_usable_size and insert_for_chunk, malloc-meta.h:89-105:
   the address of the insert of a chunk, given sizefn's answer for it *)
Definition insert_at (userptr cu : Z) : Z := w64 (userptr + cu).
Definition insert_for_chunk (userptr usable : Z) : Z := insert_at userptr (caller_usable usable).

(* The fields of struct insert, malloc-meta.h:57-76 *)
Definition i_site (v : Z) : Z := getf v 1 47.       (* initial.alloc_site *)
Definition i_unused (v : Z) : Z := getf v 48 12.    (* initial.unused *)
Definition t_id (v : Z) : Z := sext 15 (getf v 1 15). (* with_type.alloc_site_id, signed *)
Definition t_shifted (v : Z) : Z := getf v 16 44.   (* with_type.uniqtype_shifted *)
Definition lifetime (v : Z) : Z := getf v 60 4.     (* lifetime_policies in all views *)

(* INSERT_IS_WITH_TYPE, malloc-meta.h:109 *)
Definition is_with_type (v : Z) : bool := negb (i_unused v =? 0).

(* UNIQTYPE_SHIFT_FOR_INSERT / UNIQTYPE_UNSHIFT_FROM_INSERT, malloc-meta.h:78-79 *)
Definition shift_type (u : Z) : Z := Z.shiftr u 3.
Definition unshift_type (b : Z) : Z := w64 (Z.shiftl b 3).
Definition t_type (v : Z) : Z := unshift_type (t_shifted v).

(* what __generic_malloc_index_insert writes over whatever the word held,
   generic_malloc_index.h:374-375 *)
Definition store_site (v caller : Z) : Z := setf (setf v 48 12 0) 1 47 caller.

(* the compound literal { .with_type = {...} }: members not named are zeroed,
   generic_malloc_index.h:726-730, 800-805, 824-828 *)
Definition mk_with_type (u id : Z) : Z :=
  setf (setf (setf 0 0 1 1) 1 15 id) 16 44 (shift_type u).

(* lti->common.lifetime_policies |= p  (tools/stubgen.h:357-358) and  &= ~p *)
Definition policy_or (v p : Z) : Z := setf v 60 4 (Z.lor (lifetime v) p).
Definition policy_clear (v p : Z) : Z := setf v 60 4 (Z.ldiff (lifetime v) p).

(* The site tables of the loaded files, as seen by __liballocs_find_allocsite_entry_at and
   __liballocs_allocsite_id (src/allocsites.c): a site's type (0: no entry or no type)
   and its id (a 16-bit number, 65535 for "none"). *)
Record sites := mkSites { type_of : Z -> Z; id_of : Z -> Z }.

(* A chunk's insert together with __liballocs_unrecognised_heap_alloc_sites. *)
Record ist := mkI { ins : Z; unrec : list Z }.

(* What a query reports: the error flag "unrecognised alloc site", the type and the site *)
Record answer := mkA { a_err : bool; a_type : Z; a_site : Z }.

(* extract_and_output_alloc_site_and_type, generic_malloc_index.h:735-841, on a non-NULL
   insert with both outputs requested.  [ndebug] is the NDEBUG build setting. *)
Definition extract (ndebug : bool) (T : sites) (s : ist) : ist * answer :=
  if is_with_type (ins s) then
    let u := t_type (ins s) in
    if u =? 0 then (* cannot happen: see Insert_proof *) 
      (mkI (if ndebug then mk_with_type 0 (-1) else ins s) (unrec s), mkA true 0 0)
    else (s, mkA false u 0)
  else
    let site := i_site (ins s) in
    let u := type_of T site in
    let un := if (u =? 0) && negb (site =? 0) && negb (existsb (Z.eqb site) (unrec s))
              then unrec s ++ [site] else unrec s in
    let v1 := if ndebug then mk_with_type u (id_of T site) else ins s in
    if u =? 0 then
      (mkI (if ndebug then mk_with_type 0 (-1) else v1) un, mkA true 0 site)
    else (mkI v1 un, mkA false u site).

(* __generic_malloc_set_type on a found insert, generic_malloc_index.h:716-732 *)
Definition set_type (T : sites) (s : ist) (u : Z) : ist :=
  let id := if is_with_type (ins s) then t_id (ins s) else id_of T (i_site (ins s)) in
  mkI (mk_with_type u id) (unrec s).

(* Operations on one chunk between its allocation and its deallocation. *)
Inductive iop :=
| Query                 (* a type/site query *)
| SetType (u : Z)       (* __liballocs_set_alloc_type *)
| Attach (p : Z)        (* attach lifetime policies *)
| Detach (p : Z).       (* detach lifetime policies *)

Definition istep (ndebug : bool) (T : sites) (s : ist) (o : iop) : ist * option answer :=
  match o with
  | Query => let '(s', a) := extract ndebug T s in (s', Some a)
  | SetType u => (set_type T s u, None)
  | Attach p => (mkI (policy_or (ins s) p) (unrec s), None)
  | Detach p => (mkI (policy_clear (ins s) p) (unrec s), None)
  end.

Fixpoint irun (ndebug : bool) (T : sites) (s : ist) (h : list iop) : ist * list (option answer) :=
  match h with
  | [] => (s, [])
  | o :: h' => let '(s1, a) := istep ndebug T s o in
               let '(s2, r) := irun ndebug T s1 h' in (s2, a :: r)
  end.

(* a freshly indexed chunk: the insert was written over arbitrary bytes *)
Definition fresh (garbage caller : Z) : ist := mkI (store_site garbage caller) [].
