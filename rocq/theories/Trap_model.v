(* Model of system-call interposition: src/systrap.c:57-216, 269-274, 335-398, and the library's
   own mmap, src/preload.c:184-258.  Definitions only.

   A system call made by the program's code traps; the handler looks its number up in
   replaced_syscalls and otherwise performs it as it is.  Register values are taken to be within
   their C types.  Strings are ids.  The kernel is a function from the call it receives to its answer,
   a 64-bit word. *)
From Verif Require Import Base Big_model Map_model Remap_model Brk_model File_model.

Record mm := mkMm { m_addr : Z; m_len : Z; m_prot : Z; m_flags : Z; m_fd : Z; m_off : Z }.
Inductive call :=
| Cmmap (m : mm)
| Cmunmap (addr len : Z)
| Cmremap (old olen nlen flags new : Z)
| Cbrk (a : Z)
| Copen (path flags mode : Z)
| Copenat (dirfd path flags mode : Z)
| Cmprotect (addr len prot : Z)
| Cother (nr : Z).

Definition NOREPLACE : Z := 0x100000.         (* MAP_FIXED_NOREPLACE *)
Definition MREMAP_FIXED : Z := 2.
Definition MREMAP_DONTUNMAP : Z := 4.
Definition MAP_FAILED : Z := W64 - 1.
Definition EPERM : Z := 1.

(* MMAP_RETURN_IS_ERROR, include/pageindex.h:124 *)
Definition is_error (r : Z) : bool := W64 - 1 - r <? PAGE.
(* an int assigned from, and then returned as, a long *)
Definition through_int (r : Z) : Z :=
  let y := r mod 2 ^ 32 in if y <? 2 ^ 31 then y else (y - 2 ^ 32) mod W64.

(* the records, and unhinted_self_call_mmap_area (systrap.c:376) *)
Record tst := mkTr { tr_b : bst; tr_area : Z }.
Definition AREA0 : Z := 0x70fffffff000.

Section Trap.
Variables (nb : nat) (biggest : Z) (dbg : bool) (obj_of : Z -> Z).
(* dlbind_open_active_on; whether __private_nommap_malloc_heap_base is set; an address in this
   library; what the links in /proc/self/fd say; __liballocs_systrap_is_initialized *)
Variables (dlbind base : bool) (own : Z) (links : Z -> option Z) (ready : bool).
Notation find_from_root := (find_from_root nb).

(* IS_SELF_CALL, systrap.c:350-354 *)
Definition is_self (s : st) (caller : Z) : res bool :=
  if base then
    do a <- find_from_root s caller FILE false ;
    do b <- find_from_root s own FILE false ;
    Ok (Nat.eqb a b)
  else Ok false.

(* local_liballocs_nudge_mmap, systrap.c:342-380: the area and the call, changed *)
Definition nudge (s : st) (area : Z) (m : mm) (caller : Z) : res (Z * mm) :=
  if dlbind then
    Ok (area, mkMm (m_addr m) (m_len m) (m_prot m) (Z.lor (Z.ldiff (m_flags m) 3) 1) (m_fd m) (m_off m))
  else if m_addr m =? 0 then
    do self <- is_self s caller ;
    if self && (Z.land (m_flags m) MAP_FIXED =? 0) && (Z.land (m_flags m) NOREPLACE =? 0) then
      Ok ((area + m_len m) mod W64, mkMm area (m_len m) (m_prot m) (m_flags m) (m_fd m) (m_off m))
    else Ok (area, m)
  else Ok (area, m).

(* __liballocs_nudge_open, systrap.c:382-398: O_RDONLY is 0, O_RDWR 2 *)
Definition nudge_open (flags : Z) : Z := if dlbind then Z.lor (Z.ldiff flags 2) 2 else flags.

(* filename_for_fd, mmap.c:40-56 *)
Definition filename_for_fd (fd : Z) : res (option Z) :=
  if fd =? -1 then Ok None
  else match links fd with Some f => Ok (Some f) | None => do _ <- asrt dbg false ; UB end.

(* __mmap_allocator_notify_mmap, mmap.c:902-906 *)
Definition notify_mmap (T : mst) (r : Z) (m : mm) (caller : Z) : res mst :=
  do f <- filename_for_fd (m_fd m) ;
  do_mmap nb biggest dbg obj_of T r (m_len m) (m_prot m) (m_flags m) f (m_off m) caller.

Definition w_m (t : tst) (T : mst) : tst := mkTr (with_m (tr_b t) T) (tr_area t).
Definition w_area (t : tst) (a : Z) : tst := mkTr (tr_b t) a.

(* The handlers, systrap.c:57-216, and the table, 269-274.  Answers the new state, what the
   program is told, and the calls the kernel received.  mremap's caller is taken to be
   __builtin_return_address(0), which is in this library. *)
Definition trap (kernel : call -> Z) (t : tst) (caller : Z) (c : call) : res (tst * Z * list call) :=
  let T := bm (tr_b t) in
  match c with
  | Cmmap m =>
      do '(area, m1) <- nudge (fo T) (tr_area t) m caller ;
      let r := kernel (Cmmap m1) in
      let t1 := w_area t area in
      do t2 <- (if is_error r then Ok t1 else do T1 <- notify_mmap T r m1 caller ; Ok (w_m t1 T1)) ;
      Ok (t2, r, [Cmmap m1])
  | Cmunmap a l =>
      let r := through_int (kernel c) in
      do t2 <- (if r =? 0 then do T1 <- do_munmap nb biggest dbg T a l ; Ok (w_m t T1) else Ok t) ;
      Ok (t2, r, [c])
  | Cmremap old olen nlen flags new =>
      let want := if Z.land flags MREMAP_FIXED =? 0 then MAP_FAILED else new in
      let m := mkMm (if want =? MAP_FAILED then 0 else want) nlen 0 0 (-1) 0 in
      do '(area, m1) <- nudge (fo T) (tr_area t) m own ;
      let t1 := w_area t area in
      let '(new1, flags1) := if m_addr m1 =? 0 then (new, flags) else (m_addr m1, Z.lor flags MREMAP_FIXED) in
      let c1 := Cmremap old olen (m_len m1) flags1 new1 in
      let r := kernel c1 in
      do t2 <- (if is_error r then Ok t1
                else do T1 <- notify_mremap nb biggest dbg obj_of T r old olen (m_len m1)
                                (negb (Z.land flags1 MREMAP_DONTUNMAP =? 0)) caller ;
                     Ok (w_m t1 T1)) ;
      Ok (t2, r, [c1])
  | Cbrk a =>
      let r := kernel c in
      do B <- notify_brk biggest dbg (tr_b t) r caller ;
      Ok (mkTr B (tr_area t), r, [c])
  | Copen p f m => let c1 := Copen p (nudge_open f) m in Ok (t, through_int (kernel c1), [c1])
  | Copenat d p f m => let c1 := Copenat d p (nudge_open f) m in Ok (t, through_int (kernel c1), [c1])
  | Cmprotect _ _ _ | Cother _ => Ok (t, kernel c, [c])
  end.

(* mmap, preload.c:184-258, as called from this library; the answer, and errno if it was set. *)
Definition own_mmap (kernel : call -> Z) (t : tst) (m : mm) (caller : Z) : res (tst * Z * option Z * list call) :=
  let T := bm (tr_b t) in
  do '(area, m1) <- nudge (fo T) (tr_area t) m caller ;
  let t1 := w_area t area in
  let r := kernel (Cmmap m1) in
  let '(r1, e1) := if is_error r then (MAP_FAILED, Some (W64 - r)) else (r, None) in
  if biggest <? m_len m1 then Ok (t1, r1, e1, [Cmmap m1])
  else if is_error r1 then Ok (t1, MAP_FAILED, Some (W64 - r1), [Cmmap m1])
  else if negb ready then Ok (t1, r1, e1, [Cmmap m1])
  else do T1 <- notify_mmap T r1 m1 caller ; Ok (w_m t1 T1, r1, e1, [Cmmap m1]).
End Trap.
