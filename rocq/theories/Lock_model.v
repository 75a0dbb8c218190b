(* Model of which locks the library takes, when, and in what order.
   Sources: src/pageindex.c:18-31 (the lock of the table of big allocations),
   include/generic_malloc_index.h:146-163, 237-246 (one lock for each arena),
   src/allocators/generic_small.c:61-67 (the small-object index's lock), src/err.c:11-28 and
   src/liballocs_private.h:155-159 (messages).  Definitions only.

   Only locking is modelled.  Whatever decides between branches, or how often a loop goes
   round, is an arbitrary choice: every behaviour of the code is among those of the model.
   Paths ending in abort() are left out, since they end the process. *)
From Verif Require Import Base.

(* All four are recursive mutexes; [Stream] is that of the C library's stderr. *)
Inductive lk := Small | Arena (a : nat) | Table | Stream.
Definition lk_eqb (x y : lk) : bool :=
  match x, y with
  | Small, Small | Table, Table | Stream, Stream => true
  | Arena a, Arena b => Nat.eqb a b
  | _, _ => false
  end.

Inductive prog :=
| Ret
| Lock (l : lk) (k : prog)
| Unlock (l : lk) (k : prog)
| Any (k : nat -> prog).

Fixpoint seqp (p q : prog) : prog :=
  match p with
  | Ret => q
  | Lock l k => Lock l (seqp k q)
  | Unlock l k => Unlock l (seqp k q)
  | Any k => Any (fun n => seqp (k n) q)
  end.
Fixpoint rep (n : nat) (p : prog) : prog := match n with O => Ret | S m => seqp p (rep m p) end.
Definition many (p : prog) : prog := Any (fun n => rep n p).
Definition maybe (p : prog) : prog := Any (fun n => match n with O => Ret | _ => p end).
Definition orelse (p q : prog) : prog := Any (fun n => match n with O => p | _ => q end).
Definition locked (l : lk) (p : prog) : prog := Lock l (seqp p (Unlock l Ret)).
Fixpoint all (l : list prog) : prog := match l with [] => Ret | p :: l => seqp p (all l) end.

Section Code.
(* [err]: LIBALLOCS_ERR names a file, so that get_stream_err opens it (at every message,
   err.c:15-19), and the allocations which fopen makes are indexed. *)
Variable err : bool.

(* ---- the table, src/pageindex.c *)
(* the entry points which only lock, change or read the table, and unlock:
   find_mapping_at_or_above (866-879), find_mapping_below (881-895), extend (897-917),
   pre_extend (951-984), truncate_at_end (1024-1033), truncate_at_beginning (1036-1054),
   split (1057-1119), lookup_bigalloc_top_level (1369-1383) *)
Definition table_op : prog := locked Table Ret.
(* pre_extend_recursive, 937-948: takes the lock for each ancestor in turn *)
Definition pre_extend_recursive : prog := many table_op.
(* brk.c notify_brk, update_brk (174-196) and mmap_notify_brk *)
Definition notify_brk : prog := many table_op.
(* the library's own heap, dlmalloc-ext.c:150-260: each call looks up the heap's mapping to
   mark chunks; the wrapped allocator has no lock (USE_LOCKS is not defined, src/Makefile:253) *)
Definition private_alloc : prog := many table_op.
(* an insertion while a message stream is being opened: see insert, below; the arena exists *)
Definition lookup_ : prog := locked Table (maybe (seqp table_op notify_brk)).
Definition new_in_parent : prog := locked Table Ret.
Definition insert_simple (a : nat) : prog :=
  locked (Arena a) (all [lookup_; maybe private_alloc; lookup_; maybe new_in_parent]).
(* debug_printf(0, ...), i.e. fprintf(get_stream_err(), ...): to stderr, or to a newly opened
   stream, for which fopen allocates (in the arena, say, of the C library's malloc: 0) *)
Definition say : prog := if err then insert_simple 0 else locked Stream Ret.

(* find_bigalloc_recursive, 1121-1192: the early search for the heap (see Early_model) *)
Definition find_rec : prog := maybe (seqp table_op notify_brk).
(* find_deepest_bigalloc, 1231-1241, and notify_unindexed_address, 1466-1480: the stack may
   claim the address (stack.c:114-149, with a message), or the break be brought up to date *)
Definition find_deepest : prog :=
  maybe (orelse (seqp pre_extend_recursive say) notify_brk).
(* __liballocs_new_bigalloc, 644-736 *)
Definition new_bigalloc (with_parent : bool) : prog :=
  locked Table (if with_parent then Ret else seqp find_deepest find_deepest).
(* bigalloc_del, 550-592: for each record the callbacks free private memory *)
Definition bigalloc_del : prog := many private_alloc.
(* 1244-1257 and 1260-1307 *)
Definition delete_at : prog := locked Table (seqp find_rec (maybe bigalloc_del)).
Definition delete_range : prog := locked Table (many bigalloc_del).
(* the lookups, 1310-1366, 1386-1394 *)
Definition lookup : prog := locked Table find_rec.
Definition lookup_deepest : prog := locked Table find_deepest.
(* 608-640 *)
Definition print_l0 : prog := locked Table (many say).
Definition report_wild : prog := maybe (seqp say print_l0).

(* ---- arenas, include/generic_malloc_index.h *)
Definition ensure_info : prog := maybe private_alloc.                        (* 271-302 *)
Definition arena_for_userptr : prog := seqp lookup (maybe (seqp lookup_deepest ensure_info)). (* 190-208 *)
Definition ensure_bitmap : prog := seqp lookup (maybe private_alloc).         (* 301-331 *)
Definition insert (a : nat) : prog :=                                         (* 333-430 *)
  locked (Arena a) (all [ensure_bitmap; lookup; maybe (new_bigalloc true)]).
Definition delete (a : nat) : prog :=                                         (* 432-529 *)
  seqp lookup (orelse delete_at (locked (Arena a) lookup)).
Definition ensure_big : prog := seqp lookup (maybe (seqp lookup_deepest (new_bigalloc true))).  (* 180-187 *)
Definition malloc_get_info : prog := maybe arena_for_userptr.                 (* 661-706 *)

(* ---- small objects, src/allocators/generic_small.c *)
Definition index_small : prog :=                                              (* 435-500 *)
  locked Small (all [lookup_deepest; maybe (seqp malloc_get_info ensure_big); maybe private_alloc]).
Definition unindex_small : prog := locked Small lookup_deepest.               (* 774-790 *)

(* What a thread may do.  Allocation and freeing as the wrappers do them (stubgen.h); for a
   reallocation between arenas a and b, deletion then insertion then truncation
   (generic_malloc_index.h:531-577).  Queries look up records and consult the allocator. *)
Inductive call :=
| Malloc (a : nat) | Free (a : nat) | Realloc (a b : nat)
| TableOp | PreExtend | NewBig | DeleteAt | DeleteRange | Lookup | LookupDeepest | NotifyBrk
| IndexSmall | UnindexSmall | Query | SetType | ReportWild | PrintL0 | Say.

Definition code (c : call) : prog :=
  match c with
  | Malloc a => all [arena_for_userptr; ensure_info; insert a]
  | Free a => all [arena_for_userptr; delete a]
  | Realloc a b => all [arena_for_userptr; delete a; arena_for_userptr; ensure_info; insert b; lookup; maybe table_op]
  | TableOp => table_op
  | PreExtend => pre_extend_recursive
  | NewBig => Any (fun n => new_bigalloc (Nat.eqb n 0))
  | DeleteAt => delete_at
  | DeleteRange => delete_range
  | Lookup => lookup
  | LookupDeepest => lookup_deepest
  | NotifyBrk => notify_brk
  | IndexSmall => index_small
  | UnindexSmall => unindex_small
  | Query => seqp (maybe lookup_deepest) (seqp malloc_get_info (many lookup))
  | SetType => arena_for_userptr
  | ReportWild => report_wild
  | PrintL0 => print_l0
  | Say => say
  end.
Definition thread (cs : list call) : prog := all (map code cs).
End Code.

(* Running.  [own l]: who holds l and how many times over; [cur]: what each thread has left. *)
Record config := mkL { own : lk -> option (nat * nat); cur : list prog }.
Definition set_own (o : lk -> option (nat * nat)) (l : lk) (v : option (nat * nat)) : lk -> option (nat * nat) :=
  fun x => if lk_eqb x l then v else o x.
Fixpoint put (ps : list prog) (t : nat) (p : prog) : list prog :=
  match ps, t with
  | [], _ => []
  | _ :: ps, O => p :: ps
  | q :: ps, S t => q :: put ps t p
  end.

Inductive step : config -> config -> Prop :=
| s_take c t l k : nth_error (cur c) t = Some (Lock l k) -> own c l = None ->
    step c (mkL (set_own (own c) l (Some (t, 1%nat))) (put (cur c) t k))
| s_again c t l k d : nth_error (cur c) t = Some (Lock l k) -> own c l = Some (t, d) ->
    step c (mkL (set_own (own c) l (Some (t, S d))) (put (cur c) t k))
| s_drop c t l k : nth_error (cur c) t = Some (Unlock l k) -> own c l = Some (t, 1%nat) ->
    step c (mkL (set_own (own c) l None) (put (cur c) t k))
| s_less c t l k d : nth_error (cur c) t = Some (Unlock l k) -> own c l = Some (t, S (S d)) ->
    step c (mkL (set_own (own c) l (Some (t, S d))) (put (cur c) t k))
| s_any c t k n : nth_error (cur c) t = Some (Any k) -> step c (mkL (own c) (put (cur c) t (k n))).

Inductive steps : config -> config -> Prop :=
| ss_refl c : steps c c
| ss_step c c1 c2 : steps c c1 -> step c1 c2 -> steps c c2.

Definition start (err : bool) (ts : list (list call)) : config := mkL (fun _ => None) (map (thread err) ts).
