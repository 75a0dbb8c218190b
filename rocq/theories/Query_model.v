(* Model of the queries about an address: __liballocs_get_alloc_info (include/liballocs.h:605-660),
   the single-value queries of src/query.c:28-235 and the allocators' get_info functions they
   reach.  Definitions only. *)
From Verif Require Import Base Big_model Map_model Brk_model File_model Scan_model Auxv_model.

Definition PRIV : nat := 12.                  (* &__private_nommap_malloc_allocator, dlmalloc-ext.c:45-52 *)
Definition LDSO : nat := 13.                  (* &__ld_so_malloc_allocator *)

(* which results the caller passes a place for *)
Record ask := mkAsk { k_type : bool; k_base : bool; k_size : bool; k_site : bool }.
(* what was written to those places; None is a place left as it was *)
Record outs := mkOuts { o_type : option Z; o_base : option Z; o_size : option Z; o_site : option Z }.
Definition nothing : outs := mkOuts None None None None.
(* the error values that the callers tell apart; NULL is success *)
Inductive qerr := Estorage | Esite | Estatic | Eother.

Definition when {A} (b : bool) (x : A) : option A := if b then Some x else None.
Definition put (k : ask) (t b z s : Z) : outs :=
  mkOuts (when (k_type k) t) (when (k_base k) b) (when (k_size k) z) (when (k_site k) s).

(* of struct file_metadata (librunt): load_site, l->l_addr and the section headers, each as
   (has SHF_ALLOC, sh_addr, sh_size) *)
Record fmd := mkFmd { fm_site : Z; fm_laddr : Z; fm_shdrs : list (bool * Z * Z) }.

Section Query.
Variables (nb : nat) (biggest : Z) (dbg : bool) (al : nat -> Z) (cur_ max_ : Z).
(* the file metadata an allocator_private points to, if that is what it points to *)
Variable fmeta : nat -> option fmd.
(* pointer_to___uniqtype____uninterpreted_byte; not null *)
Variable BYTE : Z.
(* the initial stack, its types' addresses, and the program's entry point *)
Variables (ax : auxv) (ty_of : aty -> Z) (entry_pt : Z).
(* what find_linear_malloc_rec and the chunk's insert say: start, requested size, whether the
   insert holds a type rather than a site, and that *)
Variable ldso : Z -> option (Z * Z * bool * Z).
(* get_info of the allocators not written out below *)
Variable other : nat -> Z -> nat -> ask -> res (option qerr * outs).
Notation asrt := (asrt dbg).

(* reading load_site (and the rest) through an allocator_private *)
Definition file_of (p : nat) : res fmd := match fmeta p with Some m => Ok m | None => UB end.
Definition site_of (k : ask) (p : nat) : res Z := if k_site k then do m <- file_of p ; Ok (fm_site m) else Ok 0.

(* mmap.c:1574-1594 *)
Definition mmap_info (T : mst) (b : nat) (k : ask) : res (option qerr * outs) :=
  do _ <- asrt (negb (Nat.eqb b 0)) ;
  let r := bigs (fo T) b in
  Ok (None, put k 0 (b_begin r) (b_end r - b_begin r) (e_caller (slot (q_maps (seqs T (b_priv r))) 0))).

(* brk.c:32-42 *)
Definition brk_info (B : bst) (k : ask) : res (option qerr * outs) :=
  if Nat.eqb (b_brk B) 0 && (k_base k || k_size k) then UB else
  let r := bigs (fo (bm B)) (b_brk B) in
  Ok (None, put k 0 (b_begin r) (b_end r - b_begin r) (b_last B)).

(* static-file.c:579-592 *)
Definition file_info (s : st) (b : nat) (k : ask) : res (option qerr * outs) :=
  do _ <- asrt (negb (Nat.eqb b 0)) ;
  let r := bigs s b in
  do t <- site_of k (b_priv r) ;
  Ok (None, put k BYTE (b_begin r) (b_end r - b_begin r) t).

(* static-segment.c:171-183 *)
Definition segment_info (s : st) (b : nat) (k : ask) : res (option qerr * outs) :=
  do _ <- asrt (negb (Nat.eqb b 0)) ;
  let r := bigs s b in
  do t <- site_of k (b_priv (bigs s (b_parent r))) ;
  Ok (None, put k BYTE (b_begin r) (b_end r - b_begin r) t).

(* static-section.c:77-129 *)
Fixpoint climb_to_file (fuel : nat) (s : st) (b : nat) : res nat :=
  match fuel with
  | O => Fuel
  | S f => if Nat.eqb (b_alloc (bigs s b)) FILE then Ok b else climb_to_file f s (b_parent (bigs s b))
  end.
Fixpoint find_shdr (la obj : Z) (l : list (bool * Z * Z)) : option (Z * Z) :=
  match l with
  | [] => None
  | (a, ad, sz) :: l' => if a && (la + ad <=? obj) && (obj <? la + ad + sz) then Some (la + ad, sz) else find_shdr la obj l'
  end.
Definition section_info (s : st) (obj : Z) (b : nat) (k : ask) : res (option qerr * outs) :=
  let r := bigs s b in
  if Nat.eqb (b_alloc r) SECT then
    do t <- site_of k (b_priv (bigs s (b_parent (bigs s (b_parent r))))) ;
    Ok (None, put k BYTE (b_begin r) (b_end r - b_begin r) t)
  else
    do f <- climb_to_file (S nb) s b ;
    do m <- file_of (b_priv (bigs s f)) ;
    match find_shdr (fm_laddr m) obj (fm_shdrs m) with
    | Some (ba, sz) => Ok (None, put k 0 ba sz (fm_site m))
    | None => Ok (Some Estatic, nothing)
    end.

(* stack.c:82-87 *)
Definition stack_info : res (option qerr * outs) := Ok (Some Esite, nothing).

(* auxv.c:47-104 *)
Definition auxv_info (obj : Z) (k : ask) : res (option qerr * outs) :=
  match Auxv_model.get_info ax obj with
  | Some (t, ba, sz) => Ok (None, put k (ty_of t) ba sz entry_pt)
  | None => Ok (Some Estorage, nothing)
  end.

(* ld-so-malloc.c:79-110, without the assertions about the arena *)
Definition ldso_info (obj : Z) (k : ask) : res (option qerr * outs) :=
  match ldso obj with
  | Some (ba, sz, typed, v) =>
      Ok (None, mkOuts (when (k_type k && typed) v) (when (k_base k) ba) (when (k_size k) sz) (when (k_site k && negb typed) v))
  | None => Ok (Some Eother, nothing)
  end.

(* a->get_info for the allocator a.  The private heap's allocator has none (dlmalloc-ext.c:45-52). *)
Definition info_of (B : bst) (a : nat) (obj : Z) (b : nat) (k : ask) : res (option qerr * outs) :=
  let T := bm B in
  if Nat.eqb a MMAP then mmap_info T b k
  else if Nat.eqb a BRK then brk_info B k
  else if Nat.eqb a FILE then file_info (fo T) b k
  else if Nat.eqb a SEGM then segment_info (fo T) b k
  else if Nat.eqb a SECT then section_info (fo T) obj b k
  else if Nat.eqb a STACK then stack_info
  else if Nat.eqb a AUXV then auxv_info obj k
  else if Nat.eqb a LDSO then ldso_info obj k
  else if Nat.eqb a PRIV then UB
  else other a obj b k.

(* __liballocs_notify_unindexed_address, pageindex.c:1461-1475, with
   __mmap_allocator_notify_unindexed_address (mmap.c:982-986; the allocator is initialised).
   [kbrk] is the kernel's break. *)
Definition notify_address (B : bst) (stacks : list nat) (kbrk obj : Z) : res (bst * bool) :=
  do '(s', c) <- Big_model.stack_notify nb biggest dbg al cur_ max_ (fo (bm B)) stacks obj ;
  if c then Ok (with_m B (set_fo (bm B) s'), true) else notify_unindexed biggest dbg B kbrk obj.

(* __liballocs_get_alloc_info, liballocs.h:605-660: the state after, the allocator if it was
   written, the error and what else was written *)
Definition get_alloc_info (B : bst) (stacks : list nat) (kbrk obj : Z) (k : ask)
  : res (bst * option nat * option qerr * outs) :=
  do a <- leaf_allocator nb (fo (bm B)) obj ;
  if Nat.eqb a 0 then
    do '(B1, fixed) <- notify_address B stacks kbrk obj ;
    if fixed then
      do a1 <- leaf_allocator nb (fo (bm B1)) obj ;
      if Nat.eqb a1 0 then Abort else
      do b <- leaf_bigalloc nb (fo (bm B1)) obj ;
      do '(e, o) <- info_of B1 a1 obj b k ;
      Ok (B1, Some a1, e, o)
    else Ok (B1, None, Some Estorage, nothing)
  else
    do b <- leaf_bigalloc nb (fo (bm B)) obj ;
    do '(e, o) <- info_of B a obj b k ;
    Ok (B, Some a, e, o).

Definition read (x : option Z) : res Z := match x with Some v => Ok v | None => UB end.   (* of an uninitialised variable *)
Definition dflt (x : option Z) (d : Z) : Z := match x with Some v => v | None => d end.   (* of an initialised one *)

(* __liballocs_get_base, query.c:28-50, past the cache (Cache_model) *)
Definition q_base (B : bst) (stacks : list nat) (kbrk obj : Z) : res (bst * Z) :=
  do '(B1, a, e, o) <- get_alloc_info B stacks kbrk obj (mkAsk false true true false) ;
  match e with
  | None | Some Esite => do v <- read (o_base o) ; Ok (B1, v)
  | _ => Ok (B1, 0)
  end.
(* __liballocs_get_type, query.c:66-75 *)
Definition q_type (B : bst) (stacks : list nat) (kbrk obj : Z) : res (bst * Z) :=
  do '(B1, a, e, o) <- get_alloc_info B stacks kbrk obj (mkAsk true false false false) ;
  match e with None => do v <- read (o_type o) ; Ok (B1, v) | Some _ => Ok (B1, 0) end.
(* __liballocs_get_alloc_size, query.c:175-184 *)
Definition q_size (B : bst) (stacks : list nat) (kbrk obj : Z) : res (bst * Z) :=
  do '(B1, a, e, o) <- get_alloc_info B stacks kbrk obj (mkAsk false false true false) ;
  match e with
  | None | Some Esite => do v <- read (o_size o) ; Ok (B1, v)
  | _ => Ok (B1, 0)
  end.
(* __liballocs_get_alloc_site, query.c:163-172 *)
Definition q_site (B : bst) (stacks : list nat) (kbrk obj : Z) : res (bst * Z) :=
  do '(B1, a, e, o) <- get_alloc_info B stacks kbrk obj (mkAsk false false false true) ;
  Ok (B1, dflt (o_site o) 0).
(* __liballocs_get_leaf_allocator, query.c:188-204 *)
Definition q_alloc (B : bst) (stacks : list nat) (kbrk obj : Z) : res (bst * nat) :=
  do '(B1, a, e, o) <- get_alloc_info B stacks kbrk obj (mkAsk false false false false) ;
  match e with
  | None | Some Esite | Some Estatic => Ok (B1, match a with Some a => a | None => 0%nat end)
  | _ => Ok (B1, 0%nat)
  end.
(* __liballocs_get_inner_type, query.c:104-142, up to the descent: the type the descent starts
   from and the offset in it.  u->make_precise is read first. *)
Inductive inner := NoType | Descend (u off : Z).
Definition q_inner (B : bst) (stacks : list nat) (kbrk obj : Z) : res (bst * inner) :=
  do '(B1, a, e, o) <- get_alloc_info B stacks kbrk obj (mkAsk true true true false) ;
  match e with
  | Some _ => Ok (B1, NoType)
  | None => do ba <- read (o_base o) ;
            let u := dflt (o_type o) 0 in
            if u =? 0 then UB else Ok (B1, Descend u ((obj - ba) mod 4294967296))
  end.
(* __liballocs_get_specific_by_allocator, query.c:227-236 *)
Definition q_specific (s : st) (obj : Z) (a : nat) : res nat :=
  do n <- find_from_root nb s obj a false ;
  if Nat.eqb n 0 then Ok 0%nat else Ok (b_priv (bigs s n)).
End Query.
