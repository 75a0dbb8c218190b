(* Model of the big-allocation forest and the page index.
   Sources: include/pageindex.h, src/pageindex.c.
   Definitions only; proofs are in Big_proof*.v. *)
From Verif Require Import Base.

(* struct big_allocation, include/pageindex.h:27-60 (fields used by pageindex.c).
   Pointers to other records are table indices (BIDX/IDXB, pageindex.h:63-69);
   index 0 is NULL.  allocated_by and suballocator are allocator ids, 0 = NULL.
   allocator_private together with allocator_private_free is one id, 0 meaning
   "nothing to free"; likewise suballocator_private. *)
Record big := mkBig {
  b_begin : Z; b_end : Z;
  b_parent : nat; b_first : nat; b_next : nat; b_prev : nat;
  b_alloc : nat; b_sub : nat; b_priv : nat; b_subpriv : nat }.

(* The static data of pageindex.c: big_allocations[] (line 42), pageindex (169),
   START = __liballocs_private_nommap_malloc_bigalloc (line 812), plus a ghost
   log of the private-data free callbacks made by bigalloc_del (564-569). *)
Record st := mkSt {
  bigs : nat -> big; pidx : Z -> nat; start : nat; log : list nat }.

Definition upd (f : nat -> big) (n : nat) (b : big) : nat -> big :=
  fun m => if Nat.eqb m n then b else f m.

Definition set_bigs (s : st) (f : nat -> big) : st := mkSt f (pidx s) (start s) (log s).
Definition set_pidx (s : st) (p : Z -> nat) : st := mkSt (bigs s) p (start s) (log s).
Definition add_log (s : st) (l : list nat) : st := mkSt (bigs s) (pidx s) (start s) (log s ++ l).
Definition put (s : st) (n : nat) (b : big) : st := set_bigs s (upd (bigs s) n b).

Definition w_range (b : big) (x y : Z) : big :=
  mkBig x y (b_parent b) (b_first b) (b_next b) (b_prev b) (b_alloc b) (b_sub b) (b_priv b) (b_subpriv b).
Definition w_end (b : big) (y : Z) : big := w_range b (b_begin b) y.
Definition w_begin (b : big) (x : Z) : big := w_range b x (b_end b).
Definition w_parent (b : big) (p : nat) : big :=
  mkBig (b_begin b) (b_end b) p (b_first b) (b_next b) (b_prev b) (b_alloc b) (b_sub b) (b_priv b) (b_subpriv b).
Definition w_first (b : big) (p : nat) : big :=
  mkBig (b_begin b) (b_end b) (b_parent b) p (b_next b) (b_prev b) (b_alloc b) (b_sub b) (b_priv b) (b_subpriv b).
Definition w_next (b : big) (p : nat) : big :=
  mkBig (b_begin b) (b_end b) (b_parent b) (b_first b) p (b_prev b) (b_alloc b) (b_sub b) (b_priv b) (b_subpriv b).
Definition w_prev (b : big) (p : nat) : big :=
  mkBig (b_begin b) (b_end b) (b_parent b) (b_first b) (b_next b) p (b_alloc b) (b_sub b) (b_priv b) (b_subpriv b).

Definition s_end s n y := put s n (w_end (bigs s n) y).
Definition s_begin s n x := put s n (w_begin (bigs s n) x).
Definition s_parent s n p := put s n (w_parent (bigs s n) p).
Definition s_first s n p := put s n (w_first (bigs s n) p).
Definition s_next s n p := put s n (w_next (bigs s n) p).
Definition s_prev s n p := put s n (w_prev (bigs s n) p).

(* b->allocator_private = p, as allocators do with the record they were handed *)
Definition set_priv (s : st) (n p : nat) : st :=
  let b := bigs s n in
  put s n (mkBig (b_begin b) (b_end b) (b_parent b) (b_first b) (b_next b) (b_prev b) (b_alloc b) (b_sub b) p (b_subpriv b)).

(* BIGALLOC_IN_USE, pageindex.h:61 *)
Definition in_use (b : big) : bool := negb (b_begin b =? 0) && negb (b_end b =? 0).

Section Table.
(* NBIGALLOCS (pageindex.h:62, 32768 in the code) and BIGGEST_SANE_USER_ALLOC (vas.h,
   absent; "4GB or more" per pageindex.h:120) are parameters; [dbg] says whether the
   asserts are compiled in (src/Makefile:94 builds with -DNDEBUG unless DEBUG). *)
Variable nb : nat.
Variable biggest : Z.
Variable dbg : bool.

(* assert(c) *)
Definition asrt (c : bool) : res unit := if dbg && negb c then Abort else Ok tt.

(* Follow a chain of sibling links; [fuel] bounds the number of links. *)
Fixpoint sibs (fuel : nat) (s : st) (c : nat) : res (list nat) :=
  match fuel with
  | O => Fuel
  | S f => if Nat.eqb c 0 then Ok []
           else do r <- sibs f s (b_next (bigs s c)) ; Ok (c :: r)
  end.

(* memset_bigalloc's CHECK_LOC, pageindex.c:193-196 *)
Definition loc_ok (v old : nat) : bool := Nat.eqb v 0 || Nat.eqb v old.

Definition zrange (q n : Z) : list Z := map (fun k => q + Z.of_nat k) (seq 0 (Z.to_nat n)).

(* The checks made by memset_bigalloc in a debug build, pageindex.c:203-246: the first
   element if it is not wchar_t-aligned, all elements if old_num is non-zero, the last
   one if an odd number remain. [old] is never (bigalloc_num_t)-1 in this file. *)
Definition memset_checks (p : Z -> nat) (q : Z) (old : nat) (n : Z) : bool :=
  let odd0 := (0 <? n) && Z.odd q in
  let q1 := if odd0 then q + 1 else q in
  let n1 := if odd0 then n - 1 else n in
  implb odd0 (loc_ok (p q) old)
  && implb (negb (Nat.eqb old 0)) (forallb (fun k => loc_ok (p k) old) (zrange q1 n1))
  && implb (Z.odd n1) (loc_ok (p (q1 + n1 - 1)) old).

(* memset_bigalloc, pageindex.c:173-254.  The wmemset-by-pairs is modelled by its
   effect: entries q .. q+n-1 become num. *)
Definition memset_bigalloc (s : st) (q : Z) (num old : nat) (n : Z) : res st :=
  if biggest / PAGE <? n then Abort
  else
    do _ <- asrt (memset_checks (pidx s) q old n) ;
    Ok (set_pidx s (fun k => if (q <=? k) && (k <? q + n) then num else pidx s k)).

(* PAGE_DIST, pageindex.c:540-544 *)
Definition PAGE_DIST (a b : Z) : Z :=
  if PAGENUM a <? PAGENUM b then PAGENUM b - PAGENUM a else 0.

(* sanity_check_bigalloc, pageindex.c:129-166, on the node itself: non-empty, pages just
   before and just after it are not indexed to it, bounds within the parent.
   Simplified: the depth comparisons, the per-allocator minimum alignment and the
   recursion into children are left out. *)
Definition sanity (s : st) (n : nat) : bool :=
  let b := bigs s n in
  implb (in_use b)
    (negb (b_end b =? b_begin b)
     && negb (Nat.eqb (pidx s (PAGENUM (b_begin b - 1))) n)
     && negb (Nat.eqb (pidx s (PAGENUM (b_end b))) n)
     && (Nat.eqb (b_parent b) 0
         || ((b_begin (bigs s (b_parent b)) <=? b_begin b)
             && (b_end b <=? b_end (bigs s (b_parent b)))))).

(* find_free_bigalloc, pageindex.c:450-462: first record not in use, else abort *)
Fixpoint find_free_from (k : nat) (fuel : nat) (s : st) : res nat :=
  match fuel with
  | O => Abort
  | S f => if in_use (bigs s k) then find_free_from (S k) f s else Ok k
  end.
Definition find_free (s : st) : res nat := find_free_from 1 (nb - 1) s.

(* add_child, pageindex.c:500-515 *)
Definition add_child (s : st) (child parent : nat) : res st :=
  do _ <- asrt (Nat.eqb (b_parent (bigs s child)) 0) ;
  let s1 := s_parent s child parent in
  let pfc := b_first (bigs s1 parent) in
  let s2 := s_first s1 parent child in
  do _ <- asrt (Nat.eqb (b_next (bigs s2 child)) 0) ;
  let s3 := s_next s2 child pfc in
  do _ <- asrt (Nat.eqb pfc 0 || Nat.eqb (b_prev (bigs s3 pfc)) 0) ;
  let s4 := if Nat.eqb pfc 0 then s3 else s_prev s3 pfc child in
  do _ <- asrt (Nat.eqb (b_prev (bigs s4 child)) 0) ;
  Ok s4.

(* unlink_child, pageindex.c:517-539 *)
Definition unlink_child (s : st) (child : nat) : res st :=
  let parent := b_parent (bigs s child) in
  if Nat.eqb parent 0 then Abort else
  do s1 <- (if Nat.eqb child (b_first (bigs s parent))
            then do _ <- asrt (Nat.eqb (b_prev (bigs s child)) 0) ;
                 Ok (s_first s parent (b_next (bigs s child)))
            else do _ <- asrt (negb (Nat.eqb (b_prev (bigs s child)) 0)) ; Ok s) ;
  let pv := b_prev (bigs s1 child) in
  let s2 := if Nat.eqb pv 0 then s1 else s_next s1 pv (b_next (bigs s1 child)) in
  let nx := b_next (bigs s2 child) in
  let s3 := if Nat.eqb nx 0 then s2 else s_prev s2 nx (b_prev (bigs s2 child)) in
  let s4 := s_prev s3 child 0 in
  let s5 := s_next s4 child 0 in
  Ok (s_parent s5 child 0).

(* search_xwards_until_p, pageindex.c:813-817: walk from START along [dir] until [p]
   holds or the list ends; returns (cur, prev). *)
Fixpoint search (fuel : nat) (s : st) (dir : big -> nat) (p : big -> bool)
                (cur prev : nat) : res (nat * nat) :=
  match fuel with
  | O => Fuel
  | S f => if Nat.eqb cur 0 then Ok (0%nat, prev)
           else if p (bigs s cur) then Ok (cur, prev)
           else search f s dir p (dir (bigs s cur)) cur
  end.

(* find_toplevel_lowest_ge, pageindex.c:818-837 *)
Definition toplevel_lowest_ge (s : st) (addr : Z) : res nat :=
  let cond b := addr <=? b_end b - 1 in
  do '(cur, _) <- search (S nb) s b_next cond (start s) 0 ;
  if negb (Nat.eqb cur 0) && negb (Nat.eqb cur (start s)) then Ok cur
  else if Nat.eqb cur 0 then Ok 0%nat
  else do '(cur2, prev2) <- search (S nb) s b_prev (fun b => negb (cond b)) (start s) 0 ;
       do _ <- asrt (negb (Nat.eqb cur2 (start s))) ;
       do _ <- asrt (negb (Nat.eqb prev2 0)) ;
       Ok prev2.

(* find_toplevel_highest_lt, pageindex.c:838-851 *)
Definition toplevel_highest_lt (s : st) (addr : Z) : res nat :=
  let cond b := b_begin b <? addr in
  do '(cur, _) <- search (S nb) s b_prev cond (start s) 0 ;
  if negb (Nat.eqb cur 0) && negb (Nat.eqb cur (start s)) then Ok cur
  else if Nat.eqb cur 0 then Ok 0%nat
  else do '(cur2, prev2) <- search (S nb) s b_next (fun b => negb (cond b)) (start s) 0 ;
       do _ <- asrt (negb (Nat.eqb cur2 (start s))) ;
       do _ <- asrt (negb (Nat.eqb prev2 0)) ;
       Ok prev2.

(* add_toplevel, pageindex.c:852-859 *)
Definition add_toplevel (s : st) (b : nat) : res st :=
  do nx <- toplevel_lowest_ge s (b_end (bigs s b)) ;
  let s1 := s_next s b nx in
  do pv <- (if Nat.eqb nx 0 then toplevel_highest_lt s1 (b_begin (bigs s1 b))
            else Ok (b_prev (bigs s1 nx))) ;
  let s2 := s_prev s1 b pv in
  let s3 := if Nat.eqb pv 0 then s2 else s_next s2 pv b in
  Ok (if Nat.eqb nx 0 then s3 else s_prev s3 nx b).

(* unlink_toplevel, pageindex.c:860-864 *)
Definition unlink_toplevel (s : st) (b : nat) : st :=
  let pv := b_prev (bigs s b) in
  let s1 := if Nat.eqb pv 0 then s else s_next s pv (b_next (bigs s b)) in
  let nx := b_next (bigs s1 b) in
  if Nat.eqb nx 0 then s1 else s_prev s1 nx (b_prev (bigs s1 b)).

(* __liballocs_find_mapping_at_or_above, pageindex.c:866-879 *)
Definition mapping_at_or_above (s : st) (addr : Z) : res nat :=
  do found <- toplevel_highest_lt s addr ;
  if Nat.eqb found 0 then Ok 0%nat
  else if b_end (bigs s found) <=? addr then toplevel_lowest_ge s addr
  else Ok found.

(* __liballocs_find_mapping_below, pageindex.c:881-895 *)
Definition mapping_below (s : st) (addr : Z) : res nat :=
  do found <- toplevel_highest_lt s addr ;
  if Nat.eqb found 0 then Ok 0%nat
  else if addr <? b_end (bigs s found) then toplevel_highest_lt s (b_begin (bigs s found))
  else Ok found.

(* bigalloc_init_nomemset, pageindex.c:752-792.  Note that b->parent is not written
   here: it is relied on to be 0 already. *)
Definition init_nomemset (s : st) (n : nat) (ptr size : Z) (parent alloc sub priv subpriv : nat) : res st :=
  let b0 := bigs s n in
  let s1 := put s n (mkBig ptr (ptr + size) (b_parent b0) 0 0 0 alloc sub priv subpriv) in
  do s2 <- (if Nat.eqb parent 0 then add_toplevel s1 n else add_child s1 n parent) ;
  do _ <- asrt (sanity s2 n) ;
  Ok s2.

(* bigalloc_init, pageindex.c:794-810 *)
Definition bigalloc_init (s : st) (n : nat) (ptr size : Z) (parent alloc sub priv subpriv : nat) : res st :=
  do s1 <- init_nomemset s n ptr size parent alloc sub priv subpriv ;
  let b := bigs s1 n in
  do s2 <- memset_bigalloc s1 (PAGENUM (RUP (b_begin b))) n parent
             (PAGE_DIST (RUP (b_begin b)) (RDOWN (b_end b))) ;
  do _ <- asrt (sanity s2 n) ;
  Ok s2.

(* find_deepest_bigalloc_recursive, pageindex.c:1212-1231: descend into the first child
   that contains addr.  (The recursive call never returns NULL for a child, so the
   "maybe_deeper" test always succeeds.) *)
Definition contains (b : big) (addr : Z) : bool := (b_begin b <=? addr) && (addr <? b_end b).

Fixpoint first_child_containing (fuel : nat) (s : st) (c : nat) (addr : Z) : res nat :=
  match fuel with
  | O => Fuel
  | S f => if Nat.eqb c 0 then Ok 0%nat
           else if contains (bigs s c) addr then Ok c
           else first_child_containing f s (b_next (bigs s c)) addr
  end.

Fixpoint deepest_rec (fuel : nat) (s : st) (n : nat) (addr : Z) : res nat :=
  match fuel with
  | O => Fuel
  | S f => do c <- first_child_containing (S nb) s (b_first (bigs s n)) addr ;
           if Nat.eqb c 0 then Ok n else deepest_rec f s c addr
  end.

(* find_deepest_bigalloc, pageindex.c:1232-1242.  The call to
   __liballocs_notify_unindexed_address (which asks the stack and mmap allocators to
   adopt the address) is modelled separately; here an unindexed address has no bigalloc. *)
Definition find_deepest (s : st) (addr : Z) : res nat :=
  let n := pidx s (PAGENUM addr) in
  if Nat.eqb n 0 then Ok 0%nat else deepest_rec (S nb) s n addr.

(* __liballocs_leaf_allocator_for, pageindex.h:166-237: descend to the *last* child in
   list order that contains obj, until none does. Returns the deepest bigalloc. *)
Fixpoint last_child_containing (fuel : nat) (s : st) (c : nat) (addr : Z) (acc : nat) : res nat :=
  match fuel with
  | O => Fuel
  | S f => if Nat.eqb c 0 then Ok acc
           else last_child_containing f s (b_next (bigs s c)) addr
                  (if contains (bigs s c) addr then c else acc)
  end.
Fixpoint leaf_rec (fuel : nat) (s : st) (cur : nat) (addr : Z) : res nat :=
  match fuel with
  | O => Fuel
  | S f => do c <- last_child_containing (S nb) s (b_first (bigs s cur)) addr cur ;
           if Nat.eqb c cur then Ok cur else leaf_rec f s c addr
  end.
Definition leaf_bigalloc (s : st) (addr : Z) : res nat :=
  let n := pidx s (PAGENUM addr) in
  if Nat.eqb n 0 then Ok 0%nat else leaf_rec (S nb) s n addr.
(* ... and the allocator it answers with *)
Definition leaf_allocator (s : st) (addr : Z) : res nat :=
  do n <- leaf_bigalloc s addr ;
  if Nat.eqb n 0 then Ok 0%nat
  else Ok (if Nat.eqb (b_sub (bigs s n)) 0 then b_alloc (bigs s n) else b_sub (bigs s n)).

(* __liballocs_new_bigalloc, pageindex.c:646-736, with bigalloc_new (742-750) *)
Definition new_bigalloc (s : st) (ptr size : Z) (priv maybe_parent alloc : nat) : res (st * nat) :=
  if biggest <? size then Abort else
  do parent <-
    (if negb (Nat.eqb maybe_parent 0) then Ok maybe_parent
     else
       do d1 <- find_deepest s ptr ;
       do d2 <- find_deepest s (ptr + size - 1) ;
       if negb (Nat.eqb d1 d2) then Abort
       else if Nat.eqb d1 0 then
         if negb (RUP ptr =? ptr) then Abort
         else if negb (RUP (ptr + size) =? ptr + size) then Abort
         else Ok 0%nat
       else Ok d1) ;
  do _ <- asrt (Nat.eqb parent 0 || sanity s parent) ;
  do n <- find_free s ;
  do s1 <- bigalloc_init s n ptr size parent alloc 0 priv 0 ;
  do _ <- asrt (sanity s1 n) ;
  Ok (s1, n).

(* bigalloc_del, pageindex.c:550-591.  [del_kids] is the loop over the children, which
   reads next_sib before deleting. *)
Definition del_leaf (s : st) (n : nat) : res st :=
  let b := bigs s n in
  let s1 := add_log s ((if Nat.eqb (b_priv b) 0 then [] else [b_priv b])
                       ++ (if Nat.eqb (b_subpriv b) 0 then [] else [b_subpriv b])) in
  let parent := b_parent (bigs s1 n) in
  do s2 <- (if Nat.eqb parent 0 then Ok (unlink_toplevel s1 n) else unlink_child s1 n) ;
  let b2 := bigs s2 n in
  do s3 <- memset_bigalloc s2 (PAGENUM (RUP (b_begin b2))) parent n
             (PAGE_DIST (RUP (b_begin b2)) (RDOWN (b_end b2))) ;
  Ok (put s3 n (w_range (bigs s3 n) 0 0)).

Fixpoint del (fuel : nat) (s : st) (n : nat) : res st :=
  match fuel with
  | O => Fuel
  | S f =>
    do _ <- asrt (sanity s n) ;
    do s1 <- (fix del_kids (g : nat) (s : st) (c : nat) : res st :=
                match g with
                | O => Fuel
                | S g' => if Nat.eqb c 0 then Ok s
                          else let nx := b_next (bigs s c) in
                               do s' <- del f s c ; del_kids g' s' nx
                end) (S nb) s (b_first (bigs s n)) ;
    del_leaf s1 n
  end.
Definition bigalloc_del (s : st) (n : nat) : res st := del (S nb) s n.

(* __liballocs_extend_bigalloc, pageindex.c:897-917 *)
Definition extend (s : st) (n : nat) (new_end : Z) : res st :=
  let b := bigs s n in
  let s1 := s_end s n new_end in
  do s2 <- memset_bigalloc s1 (PAGENUM (RDOWN (b_end b))) n (b_parent b)
             (PAGE_DIST (RDOWN (b_end b)) (RDOWN new_end)) ;
  do _ <- asrt (sanity s2 n) ;
  Ok s2.

(* is_one_or_more_levels_under, pageindex.c:919-935 *)
Fixpoint under (fuel : nat) (s : st) (lower : nat) (b : nat) : res bool :=
  match fuel with
  | O => Fuel
  | S f =>
    if Nat.eqb lower b then Ok false else
    do ks <- sibs (S nb) s (b_first (bigs s b)) ;
    if existsb (Nat.eqb lower) ks then Ok true
    else (fix go (l : list nat) : res bool :=
            match l with
            | [] => Ok false
            | c :: r => do t <- under f s lower c ; if t then Ok true else go r
            end) ks
  end.

(* __liballocs_pre_extend_bigalloc, pageindex.c:951-984 *)
Definition pre_extend (s : st) (n : nat) (new_begin : Z) : res st :=
  do _ <- asrt (sanity s n) ;
  let b := bigs s n in
  let old_begin := b_begin b in
  do s2 <-
    (if new_begin <? old_begin then
       let s1 := s_begin s n new_begin in
       do upper <- (if PAGENUM old_begin <? PAGENUM (b_end b)
                    then do u <- under (S nb) s1 (pidx s1 (PAGENUM old_begin)) n ;
                         Ok (if u then RDOWN old_begin else RUP old_begin)
                    else Ok (RDOWN old_begin)) ;
       memset_bigalloc s1 (PAGENUM (RUP new_begin)) n (b_parent b)
         (PAGE_DIST (RUP new_begin) upper)
     else Ok s) ;
  do _ <- asrt (sanity s2 n) ;
  Ok s2.

(* __liballocs_pre_extend_bigalloc_recursive, pageindex.c:938-949. [min_align] gives each
   allocator's min_alignment (allocmeta.h:358), 0 meaning none. *)
Fixpoint pre_extend_rec (fuel : nat) (min_align : nat -> Z) (s : st) (n : nat) (new_begin : Z) : res st :=
  match fuel with
  | O => Fuel
  | S f =>
    let p := b_parent (bigs s n) in
    do s1 <- (if Nat.eqb p 0 then Ok s
              else let a := min_align (b_alloc (bigs s p)) in
                   pre_extend_rec f min_align s p (if a =? 0 then new_begin else rdown new_begin a)) ;
    pre_extend s1 n new_begin
  end.

(* bigalloc_truncate_at_end / __liballocs_truncate_bigalloc_at_end, pageindex.c:1005-1034 *)
Definition truncate_end (s : st) (n : nat) (new_end : Z) : res st :=
  let b := bigs s n in
  let s1 := s_end s n new_end in
  do s2 <- memset_bigalloc s1 (PAGENUM (RDOWN new_end)) (b_parent b) n
             (PAGE_DIST (RDOWN new_end) (RDOWN (b_end b))) ;
  do _ <- asrt (sanity s2 n) ;
  Ok s2.

(* __liballocs_truncate_bigalloc_at_beginning, pageindex.c:1036-1054 *)
Definition truncate_begin (s : st) (n : nat) (new_begin : Z) : res st :=
  let b := bigs s n in
  let s1 := s_begin s n new_begin in
  do s2 <- memset_bigalloc s1 (PAGENUM (RUP (b_begin b))) (b_parent b) n
             (PAGE_DIST (RUP (b_begin b)) (RUP new_begin)) ;
  do _ <- asrt (sanity s2 n) ;
  Ok s2.

(* __adjust_bigalloc_end, pageindex.c:989-1003 *)
Definition adjust_end (s : st) (n : nat) (new_end : Z) : res st :=
  if new_end <? b_end (bigs s n) then truncate_end s n new_end
  else if b_end (bigs s n) <? new_end then extend s n new_end
  else Ok s.

(* __liballocs_split_bigalloc_at_page_boundary, pageindex.c:1057-1119.
   [move_kids] is the loop that moves the children of the second half. *)
Fixpoint move_kids (fuel : nat) (s : st) (b nw : nat) (split : Z) (c : nat) : res st :=
  match fuel with
  | O => Fuel
  | S f =>
    if Nat.eqb c 0 then Ok s else
    let first_half := (b_begin (bigs s b) <=? b_begin (bigs s c)) && (b_end (bigs s c) <=? split) in
    let second_half := (split <=? b_begin (bigs s c)) && (b_end (bigs s c) <=? b_end (bigs s b)) in
    let nx := b_next (bigs s c) in
    if first_half && second_half then Abort
    else
      do s1 <- (if second_half then do s' <- unlink_child s c ; add_child s' c nw else Ok s) ;
      move_kids f s1 b nw split nx
  end.
Definition split (s : st) (b : nat) (split_addr : Z) : res (st * nat) :=
  let t := bigs s b in
  do nw <- find_free s ;
  do s1 <- init_nomemset s nw split_addr (b_end t - split_addr) (b_parent t) (b_alloc t) (b_sub t)
             (b_priv t) (b_subpriv t) ;
  do s2 <- move_kids (S nb) s1 b nw split_addr (b_first (bigs s1 b)) ;
  let s3 := s_end s2 b split_addr in
  let lo := PAGENUM (RUP (b_begin (bigs s3 nw))) in
  let hi := PAGENUM (RUP (b_end (bigs s3 nw))) in
  let s4 := set_pidx s3 (fun q => if (lo <=? q) && (q <? hi) && Nat.eqb (pidx s3 q) b then nw else pidx s3 q) in
  do _ <- asrt (sanity s4 b) ;
  do _ <- asrt (sanity s4 nw) ;
  Ok (s4, nw).

(* find_bigalloc_recursive with a start, pageindex.c:1124-1194 (second part):
   the first node on the path down to addr whose allocator (or suballocator) is [a]. *)
Fixpoint find_big_rec (fuel : nat) (s : st) (n : nat) (addr : Z) (a : nat) (bysub : bool) : res nat :=
  match fuel with
  | O => Fuel
  | S f =>
    if Nat.eqb (if bysub then b_sub (bigs s n) else b_alloc (bigs s n)) a then Ok n
    else do c <- first_child_containing (S nb) s (b_first (bigs s n)) addr ;
         if Nat.eqb c 0 then Ok 0%nat else find_big_rec f s c addr a bysub
  end.
Fixpoint climb (fuel : nat) (s : st) (n : nat) : res nat :=
  match fuel with
  | O => Fuel
  | S f => if Nat.eqb (b_parent (bigs s n)) 0 then Ok n else climb f s (b_parent (bigs s n))
  end.
(* ... and without one (start at the top-level bigalloc of the page).  The early-start-up
   heuristics for brk/mmap (1139-1169) apply only before system-call trapping is on and
   are not modelled; an unindexed page yields nothing. *)
Definition find_from_root (s : st) (addr : Z) (a : nat) (bysub : bool) : res nat :=
  let n := pidx s (PAGENUM addr) in
  if Nat.eqb n 0 then Ok 0%nat
  else do r <- climb (S nb) s n ; find_big_rec (S nb) s r addr a bysub.

(* __lookup_bigalloc_top_level, pageindex.c:1366-1382 *)
Definition lookup_top_level (s : st) (addr : Z) : res nat :=
  let n := pidx s (PAGENUM addr) in
  if Nat.eqb n 0 then Ok 0%nat else climb (S nb) s n.

(* __liballocs_delete_bigalloc_at, pageindex.c:1245-1258 *)
Definition delete_at (s : st) (addr : Z) (a : nat) : res (st * bool) :=
  do n <- find_from_root s addr a false ;
  if Nat.eqb n 0 then Ok (s, false)
  else do s' <- bigalloc_del s n ; Ok (s', true).

(* __liballocs_delete_all_bigallocs_overlapping_range, pageindex.c:1260-1307.
   [skip_zero] is the inner pos loop. *)
Fixpoint skip_zero (fuel : nat) (s : st) (q lim : Z) : res Z :=
  match fuel with
  | O => Fuel
  | S f => if Nat.eqb (pidx s q) 0 && negb (q =? lim) then skip_zero f s (q + 1) lim else Ok q
  end.
Fixpoint delete_range (fuel : nat) (s : st) (upto lim : Z) : res st :=
  match fuel with
  | O => Fuel
  | S f =>
    if lim <=? upto then Ok s else
    let q0 := PAGENUM upto in
    let max_len := PAGENUM (RUP lim) - q0 in
    do q <- skip_zero (S (Z.to_nat max_len)) s q0 (q0 + max_len) ;
    let upto1 := upto + PAGE * (q - q0) in
    if lim <=? upto1 then Ok s else
    let n := pidx s (PAGENUM upto1) in
    if Nat.eqb n 0 then Abort else
    if (b_begin (bigs s n) =? 0) || (b_end (bigs s n) =? 0) then Abort else
    do r <- climb (S nb) s n ;
    if b_end (bigs s r) <=? upto1 then Abort else
    let e := b_end (bigs s r) in
    do s' <- bigalloc_del s r ;
    delete_range f s' e lim
  end.
Definition delete_overlapping (s : st) (lo hi : Z) : res st :=
  delete_range (S (Z.to_nat (hi - lo))) s lo hi.

(* bigalloc_depth, pageindex.c:45-50 *)
Fixpoint depth (fuel : nat) (s : st) (n : nat) : res nat :=
  match fuel with
  | O => Fuel
  | S f => if Nat.eqb n 0 then Ok 0%nat else do d <- depth f s (b_parent (bigs s n)) ; Ok (S d)
  end.
(* get_common_parent_bigalloc_recursive, pageindex.c:1396-1409. depth2 - 1 is computed
   after the zero tests, so it never wraps. *)
Fixpoint common_rec (fuel : nat) (s : st) (b1 d1 b2 d2 : nat) : res nat :=
  match fuel with
  | O => Fuel
  | S f =>
    if Nat.eqb b1 b2 then Ok b1
    else if Nat.eqb d1 0 || Nat.eqb d2 0 then Ok 0%nat
    else if Nat.ltb d2 d1 then common_rec f s (b_parent (bigs s b1)) (d1 - 1) b2 (d2 - 1)
    else common_rec f s b1 d1 (b_parent (bigs s b2)) (d2 - 1)
  end.
(* get_common_parent_bigalloc, pageindex.c:1411-1418 *)
Definition common_parent (s : st) (p1 p2 : Z) : res nat :=
  do b1 <- find_deepest s p1 ;
  do b2 <- find_deepest s p2 ;
  do d1 <- depth (S nb) s b1 ;
  do d2 <- depth (S nb) s b2 ;
  common_rec (S (d1 + d2)) s b1 d1 b2 d2.

(* is_unindexed / __pages_unused, pageindex.c:465-482 *)
Definition pages_unused (s : st) (lo hi : Z) : bool :=
  (PAGENUM lo <=? PAGENUM hi) &&
  forallb (fun q => Nat.eqb (pidx s q) 0) (zrange (PAGENUM lo) (PAGENUM hi - PAGENUM lo)).

(* guess_sane_max_stack_size / guess_sane_max_stack_delta, src/allocators/stack.c:89-112;
   the two limits are __stack_lim_cur and __stack_lim_max, -1 meaning none. *)
Definition sane_stack_size (cur max : Z) : Z :=
  if (cur =? -1) && (max =? -1) then 16 * 1024 * 1024 else if cur =? -1 then max else cur.
Definition sane_stack_delta (cur max : Z) : Z :=
  if (cur =? -1) && (max =? -1) then 256 * 1024 else sane_stack_size cur max.

(* The test made on each stack in __stack_allocator_notify_unindexed_address,
   stack.c:125-136.  Addresses are below 2^63, so the ptrdiff_t differences are exact. *)
Definition stack_claims (cur max : Z) (s : st) (b : nat) (ptr : Z) : bool :=
  let dlo := b_begin (bigs s b) - ptr in
  let dhi := b_end (bigs s b) - ptr in
  ((0 <? dlo) && (dlo <? sane_stack_delta cur max) || (0 <? dhi) && (dhi <? sane_stack_size cur max))
  && pages_unused s (RUP ptr) (b_begin (bigs s b)).

(* __stack_allocator_notify_unindexed_address, stack.c:114-150.  The chain of stacks
   threaded through allocator_private is given as a list. *)
Fixpoint stack_notify (min_align : nat -> Z) (cur max : Z) (s : st) (stacks : list nat) (ptr : Z) : res (st * bool) :=
  match stacks with
  | [] => Ok (s, false)
  | b :: r => if stack_claims cur max s b ptr
              then do s' <- pre_extend_rec (S nb) min_align s b (RDOWN ptr) ; Ok (s', true)
              else stack_notify min_align cur max s r ptr
  end.

(* find_deepest_bigalloc, pageindex.c:1232-1242, including the call to
   __liballocs_notify_unindexed_address (1461-1475) as far as stacks go: the mmap/brk half
   of that call is in Brk_model. *)
Definition find_deepest_adopt (min_align : nat -> Z) (cur max : Z) (s : st) (stacks : list nat) (addr : Z) : res (st * nat) :=
  if Nat.eqb (pidx s (PAGENUM addr)) 0
  then do '(s', _) <- stack_notify min_align cur max s stacks addr ;
       do n <- find_deepest s' addr ; Ok (s', n)
  else do n <- find_deepest s addr ; Ok (s, n).

End Table.
