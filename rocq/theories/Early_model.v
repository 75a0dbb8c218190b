(* Model of a lookup by allocator made before system calls are trapped: the search backwards
   for the heap segment in find_bigalloc_recursive, src/pageindex.c:1131-1174.
   Definitions only. *)
From Verif Require Import Base Big_model Map_model Brk_model.

Definition MAX_BRK_PAGES : Z := 128.        (* pageindex.c:1143 *)

Section Early.
Variables (nb : nat) (biggest : Z) (dbg : bool).

(* the loop at pageindex.c:1144-1149; the subtraction is of unsigned longs *)
Fixpoint back (fuel : nat) (s : st) (p q : Z) : res Z :=
  match fuel with
  | O => Fuel
  | S f =>
    if (0 <? q) && Nat.eqb (pidx s q) 0 then
      if MAX_BRK_PAGES <? (q - p) mod W64 then Ok q else back f s p (q - 1)
    else Ok q
  end.

(* find_bigalloc_recursive from the root, with [kbrk] what sbrk(0) answers and [trapped]
   whether __liballocs_systrap_is_initialized.  Simplified: when the second record is not in
   use the code initialises the mmap allocator (Start_model); here that is given as doing
   nothing to the table.  The nested lookup is of an indexed page, so is the plain one. *)
Definition early_find (B : bst) (trapped : bool) (kbrk caller addr : Z) (x : nat) (bysub : bool) : res (bst * nat) :=
  let s := fo (bm B) in
  let p := PAGENUM addr in
  if negb (Nat.eqb (pidx s p) 0) || trapped then
    do n <- find_from_root nb s addr x bysub ; Ok (B, n)
  else
    do B1 <- (if b_begin (bigs s 2) =? 0 then Ok B else
              do q <- back (S (S (Z.to_nat p))) s p p ;
              if Nat.eqb (pidx s q) 0 then Ok B else
              do n <- find_from_root nb s (PAGE * q + (PAGE - 1)) BRK false ;
              if Nat.eqb n 0 then Ok B else notify_brk biggest dbg B kbrk caller) ;
    if Nat.eqb (pidx (fo (bm B1)) p) 0 then Ok (B1, 0%nat)
    else do n <- find_from_root nb (fo (bm B1)) addr x bysub ; Ok (B1, n).
End Early.
