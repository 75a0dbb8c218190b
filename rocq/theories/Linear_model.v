(* Model of the index of the dynamic linker's heap: include/linear_malloc_index.h:17-90,
   allocsld/allocinstr.c:432-502, src/allocators/ld-so-malloc.c:79-135.  Definitions only. *)
From Verif Require Import Base Big_model Allocsites_model.

(* struct linear_malloc_rec, linear_malloc_index.h:17-22 *)
Record lrec := mkL { r_addr : Z; r_size : Z; r_pad : Z }.
(* MAX_LINEAR_MALLOCS, linear_malloc_index.h:40-49: 16-byte records after a 48-byte header in a page *)
Definition MAXL : Z := 253.

(* compare_linear_mallocs, linear_malloc_index.h:51-62 *)
Definition int32 (x : Z) : Z := let m := x mod W32 in if m <? 2 ^ 31 then m else m - W32.
Definition lcmp (a b : lrec) : Z :=
  if (r_addr a =? 0) && (r_addr b =? 0) then 0
  else if r_addr a =? 0 then 1 else if r_addr b =? 0 then -1
  else int32 (r_addr a - r_addr b).
(* qsort (C library): by insertion *)
Fixpoint linsert (x : lrec) (l : list lrec) : list lrec :=
  match l with [] => [x] | y :: t => if lcmp x y <=? 0 then x :: l else y :: linsert x t end.
Definition lsort (l : list lrec) : list lrec := fold_right linsert [] l.

(* find_linear_malloc_rec, linear_malloc_index.h:64-80: the position found *)
Definition lfind (recs : list lrec) (addr : Z) : option nat :=
  match bsearch_leq (map r_addr recs) addr with
  | Some k => match nth_error recs k with
              | Some r => if addr <? r_addr r + r_size r then Some k else None
              | None => None
              end
  | None => None
  end.
(* linear_malloc_usable_size, linear_malloc_index.h:82-92 *)
Definition lusable (recs : list lrec) (addr : Z) : option Z :=
  match lfind recs addr with
  | Some k => match nth_error recs k with
              | Some r => if r_addr r =? addr then Some (r_size r + r_pad r) else None
              | None => None
              end
  | None => None
  end.

(* linear_malloc_index_insert, allocinstr.c:432-463.  The record after the last of the page is UB.
   The insert written into the chunk is not represented. *)
Definition lpad (size : Z) : Z := (rup (size + 8) 8 - 8 - size) mod 256.
Definition ladd (recs : list lrec) (addr size : Z) : res (list lrec) :=
  let n := Z.of_nat (length recs) in
  if negb (n <? MAXL) then UB else
  let new := mkL addr (size mod W32) (lpad size) in
  let recs' := recs ++ [new] in
  Ok (if (1 <? n + 1) && (addr <? r_addr (last recs (mkL 0 0 0))) then lsort recs' else recs').

Fixpoint lset (recs : list lrec) (k : nat) (r : lrec) : list lrec :=
  match recs, k with
  | [], _ => []
  | _ :: t, O => r :: t
  | x :: t, S k' => x :: lset t k' r
  end.
(* linear_malloc_index_delete, allocinstr.c:464-485 *)
Definition ldel (dbg : bool) (recs : list lrec) (addr : Z) : res (list lrec) :=
  match lfind recs addr with
  | None => UB
  | Some k =>
      match nth_error recs k with
      | None => UB
      | Some r =>
          let recs' := lsort (lset recs k (mkL 0 (r_size r) (r_pad r))) in
          do _ <- asrt dbg (r_addr (last recs' (mkL 0 0 0)) =? 0) ;
          Ok (removelast recs')
      end
  end.

(* a realloc is a deletion and an insertion (stubgen.h:392-435, allocinstr.c:486-496) *)
Inductive lop := LAlloc (addr size : Z) | LFree (addr : Z).
Definition lstep (dbg : bool) (recs : list lrec) (o : lop) : res (list lrec) :=
  match o with LAlloc a sz => ladd recs a sz | LFree a => ldel dbg recs a end.
Fixpoint lrun (dbg : bool) (recs : list lrec) (h : list lop) : res (list lrec) :=
  match h with [] => Ok recs | o :: t => do r <- lstep dbg recs o ; lrun dbg r t end.

(* linear_malloc_get_info, ld-so-malloc.c:79-110: base and size *)
Definition lget (recs : list lrec) (addr : Z) : option (Z * Z) :=
  match lfind recs addr with
  | Some k => match nth_error recs k with Some r => Some (r_addr r, r_size r) | None => None end
  | None => None
  end.

(* ---- areas: ensure_bigalloc_for_userptr, ld-so-malloc.c:144-238 ---- *)
(* what is under the mapping an address is in: its bounds, whether it is of a file, and its
   children: loaded files, areas of this heap, others *)
Inductive kind := KFile | KArea | KOther.
Record mapping := mkM { m_beg : Z; m_end : Z; m_file : bool; m_kids : list (Z * Z * kind);
  m_glob : option (Z * Z) }. (* the global variable of line 122, kept here *)
Definition spans (c : Z * Z * kind) (a : Z) : bool := (fst (fst c) <=? a) && (a <? snd (fst c)).
Definition is_area (c : Z * Z * kind) : bool := match snd c with KArea => true | _ => false end.
(* the search for a loaded file, 186-233: a child at the address is an abort *)
Fixpoint area_after_file (m : mapping) (a : Z) (kids : list (Z * Z * kind)) : res (Z * Z) :=
  match kids with
  | [] => Abort
  | c :: t => if spans c a then Abort
              else match snd c with KFile => Ok (snd (fst c), m_end m) | _ => area_after_file m a t end
  end.
(* the area and the mapping afterwards *)
Definition ensure_area (m : mapping) (a : Z) : res (mapping * (Z * Z)) :=
  match find (fun c => is_area c && spans c a) (m_kids m) with
  | Some c => Ok (m, fst c)
  | None =>
      do ar <- (if m_file m then area_after_file m a (m_kids m) else Ok (m_beg m, m_end m)) ;
      Ok (mkM (m_beg m) (m_end m) (m_file m) ((fst ar, snd ar, KArea) :: m_kids m) (m_glob m), ar)
  end.
(* brk_get_info, ld-so-malloc.c:124-135: asks the global variable.  Lines 167 and 216 assign to local
   variables of the same name, so [ensure_area] leaves it as it is. *)
Definition area_info (m : mapping) : res (Z * Z) :=
  match m_glob m with None => Abort | Some (b, e) => Ok (b, e - b) end.
