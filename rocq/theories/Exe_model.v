(* Model of the walk over the executable's program headers at start-up, which finds the load
   address and the end of the executable and fills the holes between its segments:
   src/allocators/mmap.c:1017-1075.  Definitions only. *)
From Verif Require Import Base.

Inductive pt := PT_LOAD | PT_PHDR | PT_OTHER.
(* Elf64_Phdr, as far as it is read *)
Record phdr := mkP { p_type : pt; p_vaddr : Z; p_memsz : Z }.
Definition PHENT : Z := 56.                   (* sizeof (Elf64_Phdr) *)
Definition NONE : Z := W64 - 1.               (* (uintptr_t) -1 *)
Definition u64 (x : Z) : Z := x mod W64.
(* ROUND_UP and ROUND_DOWN on a uintptr_t *)
Definition up64 (x : Z) : Z := u64 (RUP x).
Definition down64 (x : Z) : Z := RDOWN x.

(* the first loop, mmap.c:1020-1028: [at_] is the address of the first of [l] *)
Fixpoint load_addr (at_ : Z) (l : list phdr) : Z :=
  match l with
  | [] => 0
  | p :: r => match p_type p with PT_PHDR => u64 (at_ - p_vaddr p) | _ => load_addr (at_ + PHENT) r end
  end.

(* the second loop's variables; [w_holes] is the list of requests (base, size) to the
   kernel, each MAP_FIXED and PROT_NONE, the newest last *)
Record walk := mkW { w_start : Z; w_end : Z; w_last : Z; w_holes : list (Z * Z) }.

(* the second loop, mmap.c:1031-1072.  The assertion hole_size > 0 is of an unsigned number
   and cannot fail here.  What the kernel answers is left out: a request it refuses fails the
   second assertion.  Also left out is data_segment_start_addr, which nothing reads. *)
Definition seg_step (la : Z) (w : walk) (p : phdr) : walk :=
  match p_type p with
  | PT_LOAD =>
      let e := up64 (u64 (la + p_vaddr p + p_memsz p)) in
      let '(bs, be) := if w_end w <? e then (u64 (la + p_vaddr p), e) else (w_start w, w_end w) in
      let hs := if negb (w_last w =? NONE) && negb (down64 (p_vaddr p) =? w_last w)
                then w_holes w ++ [(u64 (la + w_last w), u64 (down64 (p_vaddr p) - w_last w))]
                else w_holes w in
      mkW bs be (up64 (u64 (p_vaddr p + p_memsz p))) hs
  | _ => w
  end.
Definition seg_walk (la : Z) (l : list phdr) : walk := fold_left (seg_step la) l (mkW 0 0 NONE []).

(* executable_end_addr, executable_data_segment_start_addr and the requests, mmap.c:1073-1075 *)
Definition exe_walk (at_ : Z) (l : list phdr) : res (Z * Z * list (Z * Z)) :=
  let w := seg_walk (load_addr at_ l) l in
  if w_end w =? 0 then Abort else Ok (w_end w, w_start w, w_holes w).
