(* Model of mremap notification: src/allocators/mmap.c:636-793.  Definitions only. *)
From Verif Require Import Base Big_model Map_model.

Section Remap.
Variables (nb : nat) (biggest : Z) (dbg : bool).
Variable obj_of : Z -> Z.
Notation do_mmap := (do_mmap nb biggest dbg obj_of).
Notation do_munmap := (do_munmap nb biggest dbg).

(* the loop over the old sequence's entries in the moving case, mmap.c:724-743.  The
   sequence and its count are read afresh on every turn, as there; reading the entry of an
   index outside the array is undefined.  Answers the index the loop stopped at. *)
Fixpoint move_loop (fuel : nat) (T : mst) (p i : nat) (mapped old size caller : Z) : res (mst * nat) :=
  let q := seqs T p in
  if Nat.eqb i (q_nused q) then Ok (T, i)
  else match fuel with
  | O => Fuel
  | Datatypes.S f =>
      if Nat.leb MAXLEN i then UB else
      let e := slot (q_maps q) i in
      let ob := Z.max (e_begin e) old in
      let oe := Z.min (e_end e) (old + size) in
      do S1 <- (if ob <? oe then
                  do_mmap T (ob + (mapped - old)) (oe - ob) (e_prot e) (e_flags e) (q_file q) (e_off e + (ob - e_begin e)) caller
                else Ok T) ;
      move_loop f S1 p (Datatypes.S i) mapped old size caller
  end.

(* __mmap_allocator_notify_mremap, mmap.c:639-793.  [keep]: MREMAP_DONTUNMAP.  Simplified: the
   requested address is not used by the code and left out, as is debug output; a record
   without a sequence (abort) does not occur, ids being never null. *)
Definition notify_mremap (S0 : mst) (mapped old old_passed new_size : Z) (keep : bool) (caller : Z) : res mst :=
  let size := RUP old_passed in
  do n0 <- find_from_root nb (fo S0) old MMAP false ;
  do '(T, n) <-
    (if Nat.eqb n0 0 then
       do S1 <- do_mmap S0 old size 0 0 None 0 0 ;
       do n1 <- find_from_root nb (fo S1) old MMAP false ;
       if Nat.eqb n1 0 then Abort else Ok (S1, n1)
     else Ok (S0, n0)) ;
  let p := priv_of T n in
  let q := seqs T p in
  if q_end q <? old + size then Abort
  else if (mapped =? old) && (new_size =? size) then Ok T
  else
    do _ <- asrt dbg (negb (new_size =? 0)) ;
    if (mapped =? old) && (new_size <? size) then
      match find_entry q old with
      | None => Abort
      | Some _ => do_munmap T (old + new_size) (size - new_size)
      end
    else if (mapped =? old) && (0 <? size) && (size <? new_size) then
      match find_entry q old with
      | None => Abort
      | Some e => do_mmap T (old + size) (new_size - size) (e_prot e) (e_flags e) (q_file q)
                    (e_off e + (old - e_begin e) + size) caller
      end
    else if (mapped =? old) && (size =? 0) then Abort
    else if negb (mapped =? old) && negb (size =? 0) then
      do '(S1, i) <- move_loop (2 * MAXLEN) T p 0 mapped old size caller ;
      do S2 <- (if size <? new_size then
                  (* the entry is the one past the last; the array has eight *)
                  if Nat.leb MAXLEN i then UB else
                  let e := slot (q_maps (seqs S1 p)) i in
                  do_mmap S1 (mapped + size) (new_size - size) (e_prot e) (e_flags e) (q_file (seqs S1 p))
                    (e_off e + (old + size - e_begin e)) caller
                else Ok S1) ;
      if keep then Ok S2 else do_munmap S2 old size
    else if size =? 0 then
      match find_entry q old with
      | None => Abort
      | Some e => do_mmap T mapped new_size (e_prot e) (e_flags e) (q_file q) (e_off e + (old - e_begin e)) caller
      end
    else Abort.
End Remap.
