(* Model of the program-break allocator: src/allocators/brk.c.  Definitions only. *)
From Verif Require Import Base Big_model Map_model.

Definition BRK : nat := 3.                    (* &__brk_allocator *)

(* brk.c:22-31, 190-192; mmap.c:978 (brk_mapping_bigalloc).  [b_cur] is __curbrk, which the C
   library's brk() writes, not this code. *)
Record bst := mkB { bm : mst; b_cur : Z; b_map : nat; b_brk : nat; b_init : bool; b_last : Z }.
Definition with_m (B : bst) (T : mst) : bst := mkB T (b_cur B) (b_map B) (b_brk B) (b_init B) (b_last B).

Section Brk.
Variables (nb : nat) (biggest : Z) (dbg : bool).
Notation asrt := (asrt dbg).
Notation mmap_notify_brk := (mmap_notify_brk biggest dbg).

(* find_existing_brk_mapping, brk.c:51-117.  The signed subtraction is taken not to overflow. *)
Definition find_existing (T : mst) (curbrk : Z) : res nat :=
  do n <- lookup_top_level nb (fo T) curbrk ;
  if negb (Nat.eqb n 0) then Ok n else
  do m <- mapping_below nb dbg (fo T) curbrk ;
  if Nat.eqb m 0 then Abort else
  let gap := curbrk - b_end (bigs (fo T) m) in
  if (0 <=? gap) && (gap <? biggest / 2) then
    let next := b_next (bigs (fo T) m) in
    if Nat.eqb next 0 || (curbrk <=? b_begin (bigs (fo T) next)) then Ok m else Abort
  else Ok m.

(* create_brk_bigalloc, brk.c:118-164.  Answers the new state and the kernel's break, which
   the function may move by one byte (sbrk is taken to succeed). *)
Definition create_brk (B : bst) (curbrk : Z) : res (bst * Z) :=
  do n <- find_existing (bm B) curbrk ;
  do _ <- asrt (Nat.eqb (b_map B) 0) ;
  do _ <- asrt (negb (Nat.eqb n 0)) ;
  let base := curbrk in
  let size0 := b_end (bigs (fo (bm B)) n) - base in
  do T1 <- (if size0 <? 0 then do s <- extend biggest dbg (fo (bm B)) n base ; Ok (set_fo (bm B) s) else Ok (bm B)) ;
  let size1 := b_end (bigs (fo T1) n) - base in
  do '(T2, cur2) <- (if size1 =? 0 then do T <- mmap_notify_brk T1 n (curbrk + 1) ; Ok (T, curbrk + 1) else Ok (T1, curbrk)) ;
  let size2 := b_end (bigs (fo T2) n) - base in
  do _ <- asrt (0 <? size2) ;
  do '(s3, m) <- new_bigalloc nb biggest dbg (fo T2) base size2 0 n BRK ;
  do _ <- asrt (negb (Nat.eqb m 0)) ;
  Ok (mkB (set_fo T2 s3) (b_cur B) n m (b_init B) (b_last B), cur2).

(* __brk_allocator_init, brk.c:194-218; [kbrk] is the kernel's break *)
Definition brk_init (B : bst) (kbrk : Z) : res (bst * Z) :=
  if b_init B then Ok (B, kbrk) else
  do T1 <- mmap_notify_brk (bm B) (b_map B) kbrk ;
  do '(B2, k) <- create_brk (with_m B T1) kbrk ;
  Ok (mkB (bm B2) (b_cur B2) (b_map B2) (b_brk B2) true (b_last B2), k).

(* update_brk, brk.c:166-189 *)
Definition update_brk (B : bst) (new_curbrk : Z) : res bst :=
  if Nat.eqb (b_map B) 0 then Ok B else
  do _ <- asrt (negb (Nat.eqb (b_brk B) 0)) ;
  let e := b_end (bigs (fo (bm B)) (b_brk B)) in
  if new_curbrk <? e then
    do s1 <- truncate_end biggest dbg (fo (bm B)) (b_brk B) new_curbrk ;
    do _ <- asrt (b_end (bigs s1 (b_brk B)) =? new_curbrk) ;
    do T <- mmap_notify_brk (set_fo (bm B) s1) (b_map B) new_curbrk ;
    Ok (with_m B T)
  else if e <? new_curbrk then
    do T <- mmap_notify_brk (bm B) (b_map B) new_curbrk ;
    do s1 <- extend biggest dbg (fo T) (b_brk B) new_curbrk ;
    Ok (with_m B (set_fo T s1))
  else Ok B.

(* __brk_allocator_notify_brk, brk.c:220-244 *)
Definition notify_brk (B : bst) (new_curbrk caller : Z) : res bst :=
  if negb (b_init B) then Ok B else
  let B := mkB (bm B) (b_cur B) (b_map B) (b_brk B) (b_init B) caller in
  if b_cur B <? new_curbrk then
    do T <- mmap_notify_brk (bm B) (b_map B) new_curbrk ;
    update_brk (with_m B T) new_curbrk
  else
    do B1 <- update_brk B new_curbrk ;
    do T <- mmap_notify_brk (bm B1) (b_map B1) new_curbrk ;
    Ok (with_m B1 T).

(* __brk_allocator_notify_unindexed_address, brk.c:246-254 *)
Definition notify_unindexed (B : bst) (kbrk mem : Z) : res (bst * bool) :=
  if Nat.eqb (b_brk B) 0 then Ok (B, false) else
  do B1 <- update_brk B kbrk ;
  Ok (B1, (b_cur B <=? mem) && (mem <? kbrk)).

(* get_info, brk.c:32-42: start, size and site *)
Definition get_info (B : bst) : Z * Z * Z :=
  let b := bigs (fo (bm B)) (b_brk B) in (b_begin b, b_end b - b_begin b, b_last B).
End Brk.
