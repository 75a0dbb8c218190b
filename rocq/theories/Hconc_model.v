(* Model of threads using the heap index of one arena at once.
   Source: include/generic_malloc_index.h.  The machine is Conc_model's; its lock is the
   mutex in the arena's info (151, 231-246).  Simplified: one arena, whose record is in the
   table of big allocations throughout, so that lookups of it (each of which is atomic, by
   C69) are one access; chunks which are not promoted to big allocations; were an arena to
   get several infos, they would share one lock.  The metadata words in the chunks are
   C68's, the object cache C22's.  Definitions only; proofs are in Hconc_proof.v. *)
From Verif Require Import Base Conc_model.

Definition MALLOC_ALIGN : Z := 16.   (* malloc-meta.h:14 *)
Definition NBITS : Z := 64.          (* BITMAP_WORD_NBITS *)
Definition SPAN : Z := 1024.         (* MALLOC_ALIGN * BITMAP_WORD_NBITS *)

(* struct arena_bitmap_info, generic_malloc_index.h:146-163.  None: not yet written since
   the private malloc that made it.  A bitmap is the number of a buffer, 0 for NULL. *)
Record inf := mkI { f_base : option Z; f_nw : option Z; f_bm : option nat; f_bu : option Z }.
Definition inf0 : inf := mkI None None None None.

(* shared memory: the arena's suballocator field (is it set?), its suballocator_private, the
   infos, the private heap's buffers of words with their lengths (None: not allocated, or
   freed), and the numbers the private heap gives out next. *)
Record hs := mkH { h_sub : bool; h_priv : nat; h_inf : nat -> inf; h_buf : nat -> option (Z * (Z -> Z)); h_nexti : nat; h_nextb : nat }.

Section Code.
(* debug build?; the arena's first address; what fresh memory holds *)
Variables (dbg : bool) (abegin : Z) (junk : Z -> Z).
Notation P := (prog hs).

Definition rd {A} (f : hs -> A) : P A := Act (fun s => Ok (s, f s)) Ret.
Definition wr (f : hs -> hs) : P unit := Act (fun s => Ok (f s, tt)) Ret.
Definition asrt (b : bool) : res unit := if dbg && negb b then Abort else Ok tt.
Definition chk (b : bool) : P unit := Act (fun s => do _ <- asrt b ; Ok (s, tt)) Ret.
(* a read of memory which may not have been written *)
Definition rdo {A} (f : hs -> option A) : P A :=
  Act (fun s => match f s with Some a => Ok (s, a) | None => UB end) Ret.

Definition upd_inf (s : hs) (i : nat) (g : inf -> inf) : hs :=
  mkH (h_sub s) (h_priv s) (fun j => if Nat.eqb j i then g (h_inf s j) else h_inf s j) (h_buf s) (h_nexti s) (h_nextb s).
Definition upd_buf (s : hs) (b : nat) (w : option (Z * (Z -> Z))) : hs :=
  mkH (h_sub s) (h_priv s) (h_inf s) (fun j => if Nat.eqb j b then w else h_buf s j) (h_nexti s) (h_nextb s).
Definition w_base (i : nat) (x : Z) : P unit := wr (fun s => upd_inf s i (fun f => mkI (Some x) (f_nw f) (f_bm f) (f_bu f))).
Definition w_nw (i : nat) (x : Z) : P unit := wr (fun s => upd_inf s i (fun f => mkI (f_base f) (Some x) (f_bm f) (f_bu f))).
Definition w_bm (i : nat) (x : nat) : P unit := wr (fun s => upd_inf s i (fun f => mkI (f_base f) (f_nw f) (Some x) (f_bu f))).
Definition w_bu (i : nat) (x : Z) : P unit := wr (fun s => upd_inf s i (fun f => mkI (f_base f) (f_nw f) (f_bm f) (Some x))).

(* the words of a buffer *)
Definition inside (n j : Z) : bool := (0 <=? j) && (j <? n).
Definition r_word (b : nat) (j : Z) : P Z :=
  rdo (fun s => match h_buf s b with Some (n, w) => if inside n j then Some (w j) else None | None => None end).
Definition w_word (b : nat) (j v : Z) : P unit :=
  Act (fun s => match h_buf s b with
       | Some (n, w) => if inside n j then Ok (upd_buf s b (Some (n, fun k => if k =? j then v else w k)), tt) else UB
       | None => UB end) Ret.

(* ensure_arena_has_info, generic_malloc_index.h:271-300; answers by reading the field again *)
Definition p_ensure_info : P nat :=
  pdo pr <- rd h_priv ;
  pdo _ <- (if Nat.eqb pr 0 then
              pdo i <- Act (fun s => Ok (mkH (h_sub s) (h_priv s) (fun j => if Nat.eqb j (h_nexti s) then inf0 else h_inf s j)
                                            (h_buf s) (S (h_nexti s)) (h_nextb s), h_nexti s)) Ret ;
              pdo _ <- wr (fun s => mkH (h_sub s) i (h_inf s) (h_buf s) (h_nexti s) (h_nextb s)) ;
              pdo _ <- w_nw i 0 ;
              pdo _ <- w_bm i 0 ;
              pdo _ <- w_bu i 0 ;
              w_base i (rdown abegin SPAN)
            else Ret tt) ;
  rd h_priv.

(* arena_for_userptr, generic_malloc_index.h:192-209 *)
Definition p_arena : P unit :=
  pdo t <- rd h_sub ;
  if t then Ret tt else
  pdo u <- rd h_sub ;
  pdo _ <- chk (negb u) ;
  pdo _ <- wr (fun s => mkH true (h_priv s) (h_inf s) (h_buf s) (h_nexti s) (h_nextb s)) ;
  pdo _ <- p_ensure_info ; Ret tt.
(* arena_info_for_userptr, 211-216; ensure_arena_info_for_userptr, 218-224 *)
Definition p_info : P nat := pdo _ <- p_arena ; rd h_priv.
Definition p_ensure : P nat := pdo _ <- p_arena ; p_ensure_info.

(* ensure_has_bitmap_to, generic_malloc_index.h:302-329.  Simplified: the private realloc
   always moves the bitmap, as it may; its copying and freeing are one access, and so is
   the bzero. *)
Definition p_grow (i : nat) (e : Z) : P unit :=
  pdo base <- rdo (fun s => f_base (h_inf s i)) ;
  pdo _ <- chk (rdown abegin SPAN =? base) ;
  let total := (rup e SPAN - base) / SPAN in
  pdo nw <- rdo (fun s => f_nw (h_inf s i)) ;
  if nw <? total then
    pdo bm <- rdo (fun s => f_bm (h_inf s i)) ;
    pdo b' <- Act (fun s => match (if Nat.eqb bm 0 then Some (0, junk) else h_buf s bm) with
                   | Some (_, w) => Ok (mkH (h_sub s) (h_priv s) (h_inf s)
                                 (fun j => if Nat.eqb j (h_nextb s) then Some (total, fun k => if k <? nw then w k else junk k)
                                           else if Nat.eqb j bm then None else h_buf s j) (h_nexti s) (S (h_nextb s)), h_nextb s)
                   | None => UB end) Ret ;
    pdo _ <- w_bm i b' ;
    pdo _ <- Act (fun s => match h_buf s b' with
                  | Some (n, w) => Ok (upd_buf s b' (Some (n, fun k => if (nw <=? k) && (k <? total) then 0 else w k)), tt)
                  | None => UB end) Ret ;
    w_nw i total
  else Ret tt.

(* __generic_malloc_index_insert, generic_malloc_index.h:331-430, for a chunk of [req] bytes
   asked for, [cu] usable by the caller *)
Definition p_insert (i : nat) (ptr req cu : Z) : P unit :=
  locked (
    pdo _ <- p_grow i (ptr + req) ;
    pdo b <- rdo (fun s => f_bm (h_inf s i)) ;
    pdo base <- rdo (fun s => f_base (h_inf s i)) ;
    pdo _ <- chk (base =? rdown abegin SPAN) ;
    pdo pr <- rd h_priv ;
    pdo nw <- rdo (fun s => f_nw (h_inf s pr)) ;
    pdo _ <- chk (ptr <=? base + nw * SPAN) ;
    pdo bu <- rdo (fun s => f_bu (h_inf s i)) ;
    pdo _ <- w_bu i (Z.max bu cu) ;
    let k := (ptr - base) / MALLOC_ALIGN in
    pdo w <- r_word b (k / NBITS) ;
    w_word b (k / NBITS) (Z.lor w (2 ^ (k mod NBITS)))).

(* __generic_malloc_index_delete, generic_malloc_index.h:432-528, for an unpromoted chunk *)
Definition p_delete (i : nat) (ptr : Z) : P unit :=
  locked (
    pdo b <- rdo (fun s => f_bm (h_inf s i)) ;
    pdo base <- rdo (fun s => f_base (h_inf s i)) ;
    pdo _ <- chk (base =? rdown abegin SPAN) ;
    pdo _ <- chk (base <=? ptr) ;
    let k := (ptr - base) / MALLOC_ALIGN in
    pdo w <- r_word b (k / NBITS) ;
    w_word b (k / NBITS) (Z.ldiff w (2 ^ (k mod NBITS)))).

(* bitmap_rfind_first_set_leq_l (librunt): words from the j-th down to the lo-th, the first
   of them from bit m down.  Answers the bit's number, or -1. *)
Fixpoint top (w : Z) (m : nat) : option nat :=
  if Z.testbit w (Z.of_nat m) then Some m else match m with O => None | S m' => top w m' end.
Fixpoint p_scan (fuel : nat) (b : nat) (lo j : Z) (m : nat) : P Z :=
  match fuel with
  | O => Ret (-1)
  | S f => if j <? lo then Ret (-1) else
           pdo w <- r_word b j ;
           match top w m with
           | Some t => Ret (j * NBITS + Z.of_nat t)
           | None => p_scan f b lo (j - 1) 63
           end
  end.

(* lookup_object_info_via_bitmap, generic_malloc_index.h:580-630: takes no lock.  Answers
   the object's start, 0 for none.  An index outside the bitmap is outside the contract of
   the search. *)
Definition p_look (i : nat) (mem : Z) : P Z :=
  if Nat.eqb i 0 then Ret 0 else
  pdo base <- rdo (fun s => f_base (h_inf s i)) ;
  let start := ((mem - base) / MALLOC_ALIGN) mod W32 in
  pdo hid <- (if dbg then Ret 0 else
              pdo bu <- rdo (fun s => f_bu (h_inf s i)) ;
              let fake := rdown (mem - bu) SPAN in
              Ret (if base <? fake then (fake - base) / SPAN else 0)) ;
  pdo b <- rdo (fun s => f_bm (h_inf s i)) ;
  pdo nw <- rdo (fun s => f_nw (h_inf s i)) ;
  if negb ((hid * NBITS <=? start) && (start <? nw * NBITS)) then Act (fun _ => UB) Ret else
  pdo k <- p_scan (S (Z.to_nat (start / NBITS - hid))) b hid (start / NBITS) (Z.to_nat (start mod NBITS)) ;
  Ret (if k =? -1 then 0 else base + MALLOC_ALIGN * k).

(* the hooks after malloc and before free (stubgen.h:346-357, 376-391), and a query *)
Inductive hcall := HAlloc (ptr req cu : Z) | HFree (ptr : Z) | HLook (mem : Z).
Definition hcode (c : hcall) : P Z :=
  match c with
  | HAlloc ptr req cu => pdo i <- p_ensure ; pdo _ <- p_insert i ptr req cu ; Ret 0
  | HFree ptr => pdo i <- p_ensure ; pdo _ <- p_delete i ptr ; Ret 0
  | HLook mem => pdo i <- p_info ; p_look i mem
  end.
End Code.
