(* Model of threads calling into the library at once.
   Sources: src/pageindex.c (the global lock and the functions which take it),
   include/pageindex.h:166-237 (a lookup which does not take it).
   Definitions only; proofs are in Conc_proof.v. *)
From Verif Require Import Base Big_model Big_hist.

Section Lang.
Variable S_ : Type.

(* The code of one call, as the sequence of its accesses to memory shared between threads.
   [Act f k]: one access, reading or writing the shared state ([f] may also abort the
   process, as a failed assertion does), continuing with what was read.
   [Lock]/[Unlock]: BIG_LOCK and BIG_UNLOCK, pageindex.c:20-25; the mutex is recursive (26).
   Simplified: accesses of different threads are interleaved (sequential consistency). *)
Inductive prog (R : Type) :=
| Ret (r : R)
| Lock (k : prog R)
| Unlock (k : prog R)
| Act (A : Type) (f : S_ -> res (S_ * A)) (k : A -> prog R).

Fixpoint bindp {A B} (p : prog A) (k : A -> prog B) : prog B :=
  match p with
  | Ret _ a => k a
  | Lock _ q => Lock _ (bindp q k)
  | Unlock _ q => Unlock _ (bindp q k)
  | Act _ X f q => Act _ X f (fun x => bindp (q x) k)
  end.

(* what a call does when nothing else runs *)
Fixpoint run {R} (p : prog R) (s : S_) : res (S_ * R) :=
  match p with
  | Ret _ r => Ok (s, r)
  | Lock _ q => run q s
  | Unlock _ q => run q s
  | Act _ X f q => do '(s', x) <- f s ; run (q x) s'
  end.

(* BIG_LOCK ... BIG_UNLOCK around a body *)
Definition locked {A} (p : prog A) : prog A := Lock _ (bindp p (fun a => Unlock _ (Ret _ a))).

(* Running threads.  [C] is the type of calls, [code] their code.  [own]: which thread holds
   the mutex and how many times over.  Each thread has calls still to make, possibly one
   under way, and the answers it has had. *)
Variables (C R : Type) (code : C -> prog R).
Record config := mkC {
  sh : S_; own : option (nat * nat);
  todo : nat -> list C; cur : nat -> option (prog R); done_ : nat -> list R }.

Definition set {X} (f : nat -> X) (i : nat) (x : X) : nat -> X := fun j => if Nat.eqb j i then x else f j.

(* One step of thread i; None when it has nothing to do or waits for the mutex.  A call
   which unlocks a mutex it does not hold gets EPERM, which the assertion at pageindex.c:24
   turns into an abort in a debug build; no code here does so, and it is given as UB. *)
Definition tstep (i : nat) (c : config) : option (res config) :=
  match cur c i with
  | None =>
      match todo c i with
      | [] => None
      | x :: r => Some (Ok (mkC (sh c) (own c) (set (todo c) i r) (set (cur c) i (Some (code x))) (done_ c)))
      end
  | Some (Ret _ r) =>
      Some (Ok (mkC (sh c) (own c) (todo c) (set (cur c) i None) (set (done_ c) i (done_ c i ++ [r]))))
  | Some (Lock _ k) =>
      match own c with
      | None => Some (Ok (mkC (sh c) (Some (i, 1%nat)) (todo c) (set (cur c) i (Some k)) (done_ c)))
      | Some (j, d) => if Nat.eqb i j
          then Some (Ok (mkC (sh c) (Some (i, S d)) (todo c) (set (cur c) i (Some k)) (done_ c)))
          else None
      end
  | Some (Unlock _ k) =>
      match own c with
      | Some (j, S d) => if Nat.eqb i j
          then Some (Ok (mkC (sh c) (match d with O => None | _ => Some (i, d) end) (todo c) (set (cur c) i (Some k)) (done_ c)))
          else Some UB
      | _ => Some UB
      end
  | Some (Act _ X f k) =>
      Some (do '(s', x) <- f (sh c) ; Ok (mkC s' (own c) (todo c) (set (cur c) i (Some (k x))) (done_ c)))
  end.

Definition start_c (s : S_) (t : nat -> list C) : config := mkC s None t (fun _ => None) (fun _ => []).

(* any number of steps by any threads in any order *)
Inductive steps : config -> config -> Prop :=
| steps_refl c : steps c c
| steps_snoc c c1 i c2 : steps c c1 -> tstep i c1 = Some (Ok c2) -> steps c c2.

(* a given schedule: which thread moves at each point *)
Fixpoint exec (l : list nat) (c : config) : option config :=
  match l with
  | [] => Some c
  | i :: r => match tstep i c with Some (Ok c') => exec r c' | _ => None end
  end.
End Lang.

Arguments Ret {S_ R}. Arguments Lock {S_ R}. Arguments Unlock {S_ R}. Arguments Act {S_ R A}.
Arguments bindp {S_ A B}. Arguments run {S_ R}. Arguments locked {S_ A}.
Arguments sh {S_ C R}. Arguments own {S_ C R}. Arguments todo {S_ C R}. Arguments cur {S_ C R}. Arguments done_ {S_ C R}.
Arguments mkC {S_ C R}. Arguments tstep {S_ C R}. Arguments start_c {S_ C R}. Arguments steps {S_ C R}. Arguments exec {S_ C R}.

Notation "'pdo' x <- p ; k" := (bindp p (fun x => k)) (at level 100, x binder, p at level 99, k at level 200, right associativity).

Section Code.
Variables (nb : nat) (biggest : Z) (dbg : bool) (al : nat -> Z) (lcur lmax : Z).
Notation P := (prog st).

(* a read, a write, an assertion, a computation made of reads only *)
Definition rd {A} (f : st -> A) : P A := Act (fun s => Ok (s, f s)) Ret.
Definition wr (f : st -> st) : P unit := Act (fun s => Ok (f s, tt)) Ret.
Definition chk (f : st -> bool) : P unit := Act (fun s => do _ <- asrt dbg (f s) ; Ok (s, tt)) Ret.
Definition rdr {A} (f : st -> res A) : P A := Act (fun s => do a <- f s ; Ok (s, a)) Ret.
Definition die {A} (r : res A) : P A := rdr (fun _ => r).

(* memset_bigalloc, pageindex.c:173-254.  Simplified: the stores to the page index of one
   call are one access. *)
Definition p_memset (q : Z) (num old : nat) (n : Z) : P unit :=
  Act (fun s => do s' <- memset_bigalloc biggest dbg s q num old n ; Ok (s', tt)) Ret.

(* add_child, pageindex.c:500-515 *)
Definition p_add_child (child parent : nat) : P unit :=
  pdo _ <- chk (fun s => Nat.eqb (b_parent (bigs s child)) 0) ;
  pdo _ <- wr (fun s => s_parent s child parent) ;
  pdo pfc <- rd (fun s => b_first (bigs s parent)) ;
  pdo _ <- wr (fun s => s_first s parent child) ;
  pdo _ <- chk (fun s => Nat.eqb (b_next (bigs s child)) 0) ;
  pdo _ <- wr (fun s => s_next s child pfc) ;
  pdo _ <- chk (fun s => Nat.eqb pfc 0 || Nat.eqb (b_prev (bigs s pfc)) 0) ;
  pdo _ <- (if Nat.eqb pfc 0 then Ret tt else wr (fun s => s_prev s pfc child)) ;
  chk (fun s => Nat.eqb (b_prev (bigs s child)) 0).

(* unlink_child, pageindex.c:517-539 *)
Definition p_unlink_child (child : nat) : P unit :=
  pdo parent <- rd (fun s => b_parent (bigs s child)) ;
  if Nat.eqb parent 0 then die Abort else
  pdo f <- rd (fun s => b_first (bigs s parent)) ;
  pdo _ <- (if Nat.eqb child f
            then pdo _ <- chk (fun s => Nat.eqb (b_prev (bigs s child)) 0) ;
                 pdo nx <- rd (fun s => b_next (bigs s child)) ;
                 wr (fun s => s_first s parent nx)
            else chk (fun s => negb (Nat.eqb (b_prev (bigs s child)) 0))) ;
  pdo pv <- rd (fun s => b_prev (bigs s child)) ;
  pdo _ <- (if Nat.eqb pv 0 then Ret tt
            else pdo nx <- rd (fun s => b_next (bigs s child)) ; wr (fun s => s_next s pv nx)) ;
  pdo nx <- rd (fun s => b_next (bigs s child)) ;
  pdo _ <- (if Nat.eqb nx 0 then Ret tt
            else pdo pv <- rd (fun s => b_prev (bigs s child)) ; wr (fun s => s_prev s nx pv)) ;
  pdo _ <- wr (fun s => s_prev s child 0) ;
  pdo _ <- wr (fun s => s_next s child 0) ;
  wr (fun s => s_parent s child 0).

(* add_toplevel, pageindex.c:852-859 *)
Definition p_add_toplevel (b : nat) : P unit :=
  pdo e <- rd (fun s => b_end (bigs s b)) ;
  pdo nx <- rdr (fun s => toplevel_lowest_ge nb dbg s e) ;
  pdo _ <- wr (fun s => s_next s b nx) ;
  pdo pv <- rdr (fun s => if Nat.eqb nx 0 then toplevel_highest_lt nb dbg s (b_begin (bigs s b))
                          else Ok (b_prev (bigs s nx))) ;
  pdo _ <- wr (fun s => s_prev s b pv) ;
  pdo _ <- (if Nat.eqb pv 0 then Ret tt else wr (fun s => s_next s pv b)) ;
  if Nat.eqb nx 0 then Ret tt else wr (fun s => s_prev s nx b).

(* unlink_toplevel, pageindex.c:860-864 *)
Definition p_unlink_toplevel (b : nat) : P unit :=
  pdo pv <- rd (fun s => b_prev (bigs s b)) ;
  pdo _ <- (if Nat.eqb pv 0 then Ret tt
            else pdo nx <- rd (fun s => b_next (bigs s b)) ; wr (fun s => s_next s pv nx)) ;
  pdo nx <- rd (fun s => b_next (bigs s b)) ;
  if Nat.eqb nx 0 then Ret tt
  else pdo pv <- rd (fun s => b_prev (bigs s b)) ; wr (fun s => s_prev s nx pv).

(* bigalloc_init_nomemset, pageindex.c:752-792.  Simplified: the stores to the fields of
   the fresh record are one access. *)
Definition p_init_nomemset (n : nat) (ptr size : Z) (parent alloc sub priv subpriv : nat) : P unit :=
  pdo _ <- wr (fun s => put s n (mkBig ptr (ptr + size) (b_parent (bigs s n)) 0 0 0 alloc sub priv subpriv)) ;
  pdo _ <- (if Nat.eqb parent 0 then p_add_toplevel n else p_add_child n parent) ;
  chk (fun s => sanity s n).

(* bigalloc_init, pageindex.c:794-810 *)
Definition p_init (n : nat) (ptr size : Z) (parent alloc sub priv subpriv : nat) : P unit :=
  pdo _ <- p_init_nomemset n ptr size parent alloc sub priv subpriv ;
  pdo b <- rd (fun s => bigs s n) ;
  pdo _ <- p_memset (PAGENUM (RUP (b_begin b))) n parent (PAGE_DIST (RUP (b_begin b)) (RDOWN (b_end b))) ;
  chk (fun s => sanity s n).

(* The choice of parent in __liballocs_new_bigalloc, pageindex.c:664-726; reads only. *)
Definition new_parent (s : st) (ptr size : Z) (maybe_parent : nat) : res nat :=
  if negb (Nat.eqb maybe_parent 0) then Ok maybe_parent
  else
    do d1 <- find_deepest nb s ptr ;
    do d2 <- find_deepest nb s (ptr + size - 1) ;
    if negb (Nat.eqb d1 d2) then Abort
    else if Nat.eqb d1 0 then
      if negb (RUP ptr =? ptr) then Abort
      else if negb (RUP (ptr + size) =? ptr + size) then Abort
      else Ok 0%nat
    else Ok d1.

(* __liballocs_new_bigalloc, pageindex.c:646-736 *)
Definition p_new (ptr size : Z) (priv maybe_parent alloc : nat) : P nat :=
  locked (
    if biggest <? size then die Abort else
    pdo parent <- rdr (fun s => new_parent s ptr size maybe_parent) ;
    pdo _ <- chk (fun s => Nat.eqb parent 0 || sanity s parent) ;
    pdo n <- rdr (fun s => find_free nb s) ;
    pdo _ <- p_init n ptr size parent alloc 0 priv 0 ;
    pdo _ <- chk (fun s => sanity s n) ;
    Ret n).

(* bigalloc_del, pageindex.c:550-591 *)
Definition p_del_leaf (n : nat) : P unit :=
  pdo b <- rd (fun s => bigs s n) ;
  pdo _ <- wr (fun s => add_log s ((if Nat.eqb (b_priv b) 0 then [] else [b_priv b])
                                   ++ (if Nat.eqb (b_subpriv b) 0 then [] else [b_subpriv b]))) ;
  pdo parent <- rd (fun s => b_parent (bigs s n)) ;
  pdo _ <- (if Nat.eqb parent 0 then p_unlink_toplevel n else p_unlink_child n) ;
  pdo b2 <- rd (fun s => bigs s n) ;
  pdo _ <- p_memset (PAGENUM (RUP (b_begin b2))) parent n (PAGE_DIST (RUP (b_begin b2)) (RDOWN (b_end b2))) ;
  wr (fun s => put s n (w_range (bigs s n) 0 0)).

Fixpoint p_kids (del1 : nat -> P unit) (g : nat) (c : nat) : P unit :=
  match g with
  | O => die Fuel
  | S g' => if Nat.eqb c 0 then Ret tt
            else pdo nx <- rd (fun s => b_next (bigs s c)) ;
                 pdo _ <- del1 c ; p_kids del1 g' nx
  end.
Fixpoint p_del (fuel : nat) (n : nat) : P unit :=
  match fuel with
  | O => die Fuel
  | S f =>
    pdo _ <- chk (fun s => sanity s n) ;
    pdo c0 <- rd (fun s => b_first (bigs s n)) ;
    pdo _ <- p_kids (p_del f) (S nb) c0 ;
    p_del_leaf n
  end.

(* __liballocs_delete_bigalloc_at, pageindex.c:1245-1258 *)
Definition p_delete_at (a : Z) (alloc : nat) : P nat :=
  locked (
    pdo n <- rdr (fun s => find_from_root nb s a alloc false) ;
    if Nat.eqb n 0 then Ret 0%nat else pdo _ <- p_del (S nb) n ; Ret 1%nat).

(* __liballocs_delete_all_bigallocs_overlapping_range, pageindex.c:1260-1307 *)
Fixpoint p_delete_range (fuel : nat) (upto lim : Z) : P unit :=
  match fuel with
  | O => die Fuel
  | S f =>
    if lim <=? upto then Ret tt else
    let q0 := PAGENUM upto in
    let max_len := PAGENUM (RUP lim) - q0 in
    pdo q <- rdr (fun s => skip_zero (S (Z.to_nat max_len)) s q0 (q0 + max_len)) ;
    let upto1 := upto + PAGE * (q - q0) in
    if lim <=? upto1 then Ret tt else
    pdo n <- rd (fun s => pidx s (PAGENUM upto1)) ;
    if Nat.eqb n 0 then die Abort else
    pdo b <- rd (fun s => bigs s n) ;
    if (b_begin b =? 0) || (b_end b =? 0) then die Abort else
    pdo r <- rdr (fun s => climb (S nb) s n) ;
    pdo e <- rd (fun s => b_end (bigs s r)) ;
    if e <=? upto1 then die Abort else
    pdo _ <- p_del (S nb) r ;
    p_delete_range f e lim
  end.
Definition p_delete_overlapping (lo hi : Z) : P nat :=
  locked (pdo _ <- p_delete_range (S (Z.to_nat (hi - lo))) lo hi ; Ret 0%nat).

(* __liballocs_extend_bigalloc, pageindex.c:897-917 *)
Definition p_extend (n : nat) (e : Z) : P nat :=
  locked (
    pdo b <- rd (fun s => bigs s n) ;
    pdo _ <- wr (fun s => s_end s n e) ;
    pdo _ <- p_memset (PAGENUM (RDOWN (b_end b))) n (b_parent b) (PAGE_DIST (RDOWN (b_end b)) (RDOWN e)) ;
    pdo _ <- chk (fun s => sanity s n) ;
    Ret 1%nat).

(* __liballocs_truncate_bigalloc_at_end, pageindex.c:1005-1034 *)
Definition p_trunc_end (n : nat) (e : Z) : P nat :=
  locked (
    pdo b <- rd (fun s => bigs s n) ;
    pdo _ <- wr (fun s => s_end s n e) ;
    pdo _ <- p_memset (PAGENUM (RDOWN e)) (b_parent b) n (PAGE_DIST (RDOWN e) (RDOWN (b_end b))) ;
    pdo _ <- chk (fun s => sanity s n) ;
    Ret 1%nat).

(* __liballocs_truncate_bigalloc_at_beginning, pageindex.c:1036-1054 *)
Definition p_trunc_begin (n : nat) (nbg : Z) : P nat :=
  locked (
    pdo b <- rd (fun s => bigs s n) ;
    pdo _ <- wr (fun s => s_begin s n nbg) ;
    pdo _ <- p_memset (PAGENUM (RUP (b_begin b))) (b_parent b) n (PAGE_DIST (RUP (b_begin b)) (RUP nbg)) ;
    pdo _ <- chk (fun s => sanity s n) ;
    Ret 1%nat).

(* __liballocs_pre_extend_bigalloc, pageindex.c:951-984 *)
Definition p_pre_extend (n : nat) (nbg : Z) : P nat :=
  locked (
    pdo _ <- chk (fun s => sanity s n) ;
    pdo b <- rd (fun s => bigs s n) ;
    pdo _ <- (if nbg <? b_begin b then
                pdo _ <- wr (fun s => s_begin s n nbg) ;
                pdo upper <- rdr (fun s =>
                   if PAGENUM (b_begin b) <? PAGENUM (b_end b)
                   then do u <- under nb (S nb) s (pidx s (PAGENUM (b_begin b))) n ;
                        Ok (if u then RDOWN (b_begin b) else RUP (b_begin b))
                   else Ok (RDOWN (b_begin b))) ;
                p_memset (PAGENUM (RUP nbg)) n (b_parent b) (PAGE_DIST (RUP nbg) upper)
              else Ret tt) ;
    pdo _ <- chk (fun s => sanity s n) ;
    Ret 1%nat).

(* __liballocs_pre_extend_bigalloc_recursive, pageindex.c:938-949: reads the parent itself
   and takes the lock in each call of the previous function. *)
Fixpoint p_pre_extend_rec (fuel : nat) (n : nat) (nbg : Z) : P nat :=
  match fuel with
  | O => die Fuel
  | S f =>
    pdo p <- rd (fun s => b_parent (bigs s n)) ;
    pdo _ <- (if Nat.eqb p 0 then Ret 0%nat
              else pdo a <- rd (fun s => b_alloc (bigs s p)) ;
                   p_pre_extend_rec f p (if al a =? 0 then nbg else rdown nbg (al a))) ;
    p_pre_extend n nbg
  end.

(* __stack_allocator_notify_unindexed_address, stack.c:114-150 *)
Fixpoint p_stack_notify (stacks : list nat) (ptr : Z) : P unit :=
  match stacks with
  | [] => Ret tt
  | b :: r => pdo t <- rd (fun s => stack_claims lcur lmax s b ptr) ;
              if t then pdo _ <- p_pre_extend_rec (S nb) b (RDOWN ptr) ; Ret tt
              else p_stack_notify r ptr
  end.

(* __lookup_deepest_bigalloc, pageindex.c:1385-1394, with find_deepest_bigalloc (1232-1242):
   the lock is held while an unindexed address is offered to the stack allocator, whose
   growth of a stack takes it again. *)
Definition p_deepest (stacks : list nat) (a : Z) : P nat :=
  locked (
    pdo n <- rd (fun s => pidx s (PAGENUM a)) ;
    pdo _ <- (if Nat.eqb n 0 then p_stack_notify stacks a else Ret tt) ;
    rdr (fun s => find_deepest nb s a)).

(* __liballocs_split_bigalloc_at_page_boundary, pageindex.c:1057-1119 *)
Fixpoint p_move_kids (fuel : nat) (b nw : nat) (split : Z) (c : nat) : P unit :=
  match fuel with
  | O => die Fuel
  | S f =>
    if Nat.eqb c 0 then Ret tt else
    pdo rb <- rd (fun s => bigs s b) ;
    pdo rc <- rd (fun s => bigs s c) ;
    let first_half := (b_begin rb <=? b_begin rc) && (b_end rc <=? split) in
    let second_half := (split <=? b_begin rc) && (b_end rc <=? b_end rb) in
    if first_half && second_half then die Abort
    else
      pdo _ <- (if second_half then pdo _ <- p_unlink_child c ; p_add_child c nw else Ret tt) ;
      p_move_kids f b nw split (b_next rc)
  end.
Definition p_split (b : nat) (sp : Z) : P nat :=
  locked (
    pdo t <- rd (fun s => bigs s b) ;
    pdo nw <- rdr (fun s => find_free nb s) ;
    pdo _ <- p_init_nomemset nw sp (b_end t - sp) (b_parent t) (b_alloc t) (b_sub t) (b_priv t) (b_subpriv t) ;
    pdo c0 <- rd (fun s => b_first (bigs s b)) ;
    pdo _ <- p_move_kids (S nb) b nw sp c0 ;
    pdo _ <- wr (fun s => s_end s b sp) ;
    pdo _ <- wr (fun s =>
       let lo := PAGENUM (RUP (b_begin (bigs s nw))) in
       let hi := PAGENUM (RUP (b_end (bigs s nw))) in
       set_pidx s (fun q => if (lo <=? q) && (q <? hi) && Nat.eqb (pidx s q) b then nw else pidx s q)) ;
    pdo _ <- chk (fun s => sanity s b) ;
    pdo _ <- chk (fun s => sanity s nw) ;
    Ret nw).

(* The lookups which hold the lock throughout: __lookup_bigalloc_from_root and
   ..._by_suballocator (1342-1365), __liballocs_find_mapping_at_or_above (866-879),
   __liballocs_find_mapping_below (881-895). *)
Definition p_find (a : Z) (x : nat) (bysub : bool) : P nat := locked (rdr (fun s => find_from_root nb s a x bysub)).
Definition p_above (a : Z) : P nat := locked (rdr (fun s => mapping_at_or_above nb dbg s a)).
Definition p_below (a : Z) : P nat := locked (rdr (fun s => mapping_below nb dbg s a)).

(* ---- code which reads shared memory without the lock ---- *)

(* __liballocs_leaf_allocator_for, pageindex.h:166-237: one access per child inspected and
   one per link followed. *)
Fixpoint p_last (fuel : nat) (c : nat) (addr : Z) (acc : nat) : P nat :=
  match fuel with
  | O => die Fuel
  | S f => if Nat.eqb c 0 then Ret acc
           else pdo t <- rd (fun s => contains (bigs s c) addr) ;
                pdo nx <- rd (fun s => b_next (bigs s c)) ;
                p_last f nx addr (if t then c else acc)
  end.
Fixpoint p_leaf_rec (fuel : nat) (c : nat) (addr : Z) : P nat :=
  match fuel with
  | O => die Fuel
  | S f => pdo fc <- rd (fun s => b_first (bigs s c)) ;
           pdo r <- p_last (S nb) fc addr c ;
           if Nat.eqb r c then Ret c else p_leaf_rec f r addr
  end.
Definition p_leaf (addr : Z) : P nat :=
  pdo n <- rd (fun s => pidx s (PAGENUM addr)) ;
  if Nat.eqb n 0 then Ret 0%nat else p_leaf_rec (S nb) n addr.
Definition p_leaf_allocator (addr : Z) : P nat :=
  pdo n <- p_leaf addr ;
  if Nat.eqb n 0 then Ret 0%nat
  else pdo u <- rd (fun s => b_sub (bigs s n)) ;
       if Nat.eqb u 0 then rd (fun s => b_alloc (bigs s n)) else Ret u.

(* __lookup_bigalloc_top_level, pageindex.c:1366-1382: the lock is dropped before the climb *)
Fixpoint p_climb (fuel : nat) (n : nat) : P nat :=
  match fuel with
  | O => die Fuel
  | S f => pdo p <- rd (fun s => b_parent (bigs s n)) ;
           if Nat.eqb p 0 then Ret n else p_climb f p
  end.
Definition p_top (addr : Z) : P nat :=
  pdo n <- locked (rd (fun s => pidx s (PAGENUM addr))) ;
  if Nat.eqb n 0 then Ret 0%nat else p_climb (S nb) n.

(* __adjust_bigalloc_end, pageindex.c:989-1003: compares with the old end before the lock *)
Definition p_adjust_end (n : nat) (e : Z) : P nat :=
  pdo old <- rd (fun s => b_end (bigs s n)) ;
  if e <? old then p_trunc_end n e else if old <? e then p_extend n e else Ret 0%nat.

(* b->suballocator = ..., b->allocator_private = ...: single stores made by allocators to a
   record they were handed, without the lock (e.g. stack.c:78, mmap.c:82).  Simplified: the
   suballocator and its private data are one store. *)
Definition p_set_sub (n sub subpriv : nat) : P nat := pdo _ <- wr (fun s => set_sub s n sub subpriv) ; Ret 0%nat.

(* The calls. *)
Inductive call :=
| CNew (ptr size : Z) (priv maybe_parent alloc : nat)
| CDelAt (a : Z) (alloc : nat)
| CDelRange (lo hi : Z)
| CExtend (n : nat) (e : Z)
| CPreExtend (n : nat) (b : Z)
| CTruncEnd (n : nat) (e : Z)
| CTruncBegin (n : nat) (b : Z)
| CSplit (n : nat) (sp : Z)
| CDeepest (stacks : list nat) (a : Z)
| CFind (a : Z) (x : nat) (bysub : bool)
| CAbove (a : Z)
| CBelow (a : Z)
| CLeaf (a : Z)
| CLeafAlloc (a : Z)
| CTop (a : Z)
| CAdjustEnd (n : nat) (e : Z)
| CSetSub (n sub subpriv : nat).

Definition code (c : call) : P nat :=
  match c with
  | CNew p z pr mp a => p_new p z pr mp a
  | CDelAt a x => p_delete_at a x
  | CDelRange lo hi => p_delete_overlapping lo hi
  | CExtend n e => p_extend n e
  | CPreExtend n b => p_pre_extend n b
  | CTruncEnd n e => p_trunc_end n e
  | CTruncBegin n b => p_trunc_begin n b
  | CSplit n sp => p_split n sp
  | CDeepest stacks a => p_deepest stacks a
  | CFind a x bs => p_find a x bs
  | CAbove a => p_above a
  | CBelow a => p_below a
  | CLeaf a => p_leaf a
  | CLeafAlloc a => p_leaf_allocator a
  | CTop a => p_top a
  | CAdjustEnd n e => p_adjust_end n e
  | CSetSub n u p => p_set_sub n u p
  end.
End Code.
