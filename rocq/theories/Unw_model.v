(* Model of the frame-pointer unwinder, src/fake-libunwind.c:24-133, and of the walk over the stack
   that it serves, include/liballocs.h:772-828.  Definitions only.

   Memory is a partial function from addresses to 64-bit words, read at the address given; an address
   that is not mapped has none, and reading it is undefined.  Words are not negative and below
   2^64. *)
From Verif Require Import Base Frame_model.

Definition mem := Z -> option Z.
Definition load (m : mem) (a : Z) : res Z := match m a with Some v => Ok v | None => UB end.

(* unw_cursor_t, include/fake-libunwind.h:120-127 *)
Record cursor := mkCu { c_sp : Z; c_bp : Z; c_ip : Z }.

(* SANE_BP_OR_NULL, fake-libunwind.c:47-50 *)
Definition sane (bp sp : Z) : Z := if (sp <=? bp) && (bp - sp <? 65536) then bp else 0.

(* unw_getcontext, fake-libunwind.c:53-83; [fp] is its own frame pointer.  The assertions are only in
   a debugging build, [dbg]. *)
Definition getcontext (dbg : bool) (m : mem) (fp : Z) : res cursor :=
  if dbg && (fp =? 0) then Abort
  else
    do ra <- load m ((fp + 8) mod W64) ;
    do cbp <- load m fp ;
    if dbg && (cbp =? 0) then Abort
    else
      let sp := (fp + 16) mod W64 in
      Ok (mkCu sp (sane cbp sp) ra).

(* an unsigned 64-bit number as an int *)
Definition to_int (x : Z) : Z := let y := x mod W32 in if y <? 2 ^ 31 then y else y - W32.

(* unw_step, fake-libunwind.c:95-133: what it returns, and the cursor *)
Definition step (dbg : bool) (m : mem) (c : cursor) : res (Z * cursor) :=
  if c_bp c =? 0 then Ok (0, c)
  else if dbg && negb (c_bp c mod 8 =? 0) then Abort
  else
    do ra <- load m ((c_bp c + 8) mod W64) ;
    let sp := (c_bp c + 16) mod W64 in
    do cand <- load m (c_bp c) ;
    let n := mkCu sp (sane cand sp) ra in
    if (sp <? c_sp n) || (c_sp n <=? (sp - 268435456) mod W64) then Ok (-1, c)
    else Ok (to_int (c_sp n - c_sp c), n).

(* unw_get_reg of the base pointer into a variable, fake-libunwind.c:30-34: a null pointer leaves
   the variable alone *)
Definition get_bp (c : cursor) (old : Z) : Z := if c_bp c =? 0 then old else c_bp c.

Section Walk.
Variable dbg : bool.
Variable A : Type.
(* the callback, with what it keeps in its argument *)
Variable cb : A -> Z -> Z -> Z -> A * Z.

(* the loop of __liballocs_walk_stack, liballocs.h:789-825; [bp] is the variable *)
Fixpoint walk_loop (fuel : nat) (m : mem) (c : cursor) (bp : Z) (a : A) : res (A * Z) :=
  match fuel with
  | O => Fuel
  | S fuel' =>
      let bp' := get_bp c bp in
      let '(a', r) := cb a (c_ip c) (c_sp c) bp' in
      if negb (r =? 0) then Ok (a', r)
      else
        do '(s, c') <- step dbg m c ;
        if 0 <? s then
          if c_sp c' =? TOP then Ok (a', r) else walk_loop fuel' m c' bp' a'
        else if s =? 0 then Ok (a', r)
        else Ok (a', -1)
  end.

(* __liballocs_walk_stack, liballocs.h:772-828; [fp] is the frame pointer that unw_getcontext has.
   The assertion that the cursor starts at the caller's stack pointer is left out: it is about what
   the compiler does. *)
Definition walk_stack (fuel : nat) (m : mem) (fp : Z) (a : A) : res (A * Z) :=
  do c <- getcontext dbg m fp ;
  walk_loop fuel m c 0 a.
End Walk.

(* What the unwinder tells the stack-frame allocator's get_info (src/allocators/stackframe.c:173-300),
   whose loop Frame_model has over a list of frames: each frame's address, stack pointer and, perhaps,
   base pointer, and how the last step ends. *)
Definition uf (c : cursor) : uframe := mkU (c_ip c) (c_sp c) (if c_bp c =? 0 then None else Some (c_bp c)).
Fixpoint unwound (fuel : nat) (dbg : bool) (m : mem) (c : cursor) : res (list uframe * ustep) :=
  match fuel with
  | O => Fuel
  | S fuel' =>
      do '(s, c') <- step dbg m c ;
      if 0 <? s then do '(l, e) <- unwound fuel' dbg m c' ; Ok (uf c :: l, e)
      else Ok ([uf c], if s =? 0 then StepEnd else StepError)
  end.
