(* Model of several threads in the library's own heap at once: emulated_sbrk and the marking of
   chunks, src/dlmalloc-ext.c:150-186, 276-302.
   Neither takes a lock, and the allocator they serve is built without one (USE_LOCKS is not
   defined, src/Makefile:253-254).  Their callers hold what locks they happen to: one for each
   arena (generic_malloc_index.h:333-430), the small-object index's (generic_small.c:435-500), the
   table's (pageindex.c:550-592) or none.  The allocator itself comes from elsewhere and is not
   modelled.  Definitions only. *)
From Verif Require Import Base Conc_model.

(* emulated_curbrk, and the words of the bitmap of the heap *)
Record pst := mkP { brk : Z; words : Z -> Z }.
Definition set_brk (s : pst) (b : Z) : pst := mkP b (words s).
Definition set_word (s : pst) (w v : Z) : pst := mkP (brk s) (fun x => if x =? w then v else words s x).

(* what threads call: sbrk, and the bit changes made by set_metadata and clear_metadata *)
Inductive pcall := PSbrk (inc : Z) | PMark (i : Z) | PUnmark (i : Z).
(* the memory given by a successful growth: where it begins, and its length *)
Definition pans := option (Z * Z).

Definition word_of (i : Z) : Z := i / 64.
Definition bit_of (i : Z) : Z := i mod 64.

Section Code.
Variables (base limit : Z).
Notation P := (prog pst).
Definition rd {A} (f : pst -> A) : P A := Act (fun s => Ok (s, f s)) Ret.
Definition wr (f : pst -> pst) : P unit := Act (fun s => Ok (f s, tt)) Ret.

(* emulated_sbrk, dlmalloc-ext.c:280-302: the static variable is read wherever it is mentioned
   (282, 283, 286) *)
Definition p_sbrk (inc : Z) : P pans :=
  pdo b <- rd brk ;
  pdo _ <- (if b =? 0 then wr (fun s => set_brk s base) else Ret tt) ;
  pdo old <- rd brk ;
  pdo cur <- rd brk ;
  let req := (cur + inc) mod W64 in
  if ((0 <? inc) && (req <? old)) || ((inc <? 0) && (old <? req)) then Ret None
  else
    let new := if 0 <? inc then Z.min limit req else Z.max base req in
    if new =? req then pdo _ <- wr (fun s => set_brk s req) ; Ret (Some (old, inc))
    else Ret None.

(* bitmap_set_b and bitmap_clear_b (librunt's bitmap.h), used at dlmalloc-ext.c:159-162, 181-184: a
   word is read, then written.  Simplified: bits are numbered from the low end of a word. *)
Definition p_mark (i : Z) : P pans :=
  pdo v <- rd (fun s => words s (word_of i)) ;
  pdo _ <- wr (fun s => set_word s (word_of i) (Z.setbit v (bit_of i))) ; Ret None.
Definition p_unmark (i : Z) : P pans :=
  pdo v <- rd (fun s => words s (word_of i)) ;
  pdo _ <- wr (fun s => set_word s (word_of i) (Z.clearbit v (bit_of i))) ; Ret None.

Definition pbody (c : pcall) : P pans :=
  match c with PSbrk inc => p_sbrk inc | PMark i => p_mark i | PUnmark i => p_unmark i end.
(* [held]: every caller is inside one and the same lock *)
Definition pcode (held : bool) (c : pcall) : P pans := if held then locked (pbody c) else pbody c.
End Code.
