(* Model of the memory-range cache: include/liballocs_cil_inlines.h:189-446 and
   src/cache.c.  Only definitions here, no proofs. *)
From Verif Require Import Base.
From Coq Require Import NArith.

(* What a fill stores: struct __liballocs_memrange_cache_entry_s without its two
   list links (liballocs_cil_inlines.h:189-199).  Addresses and the uniqtype
   pointer are integers. *)
Record rcd := mkR { r_base : Z; r_limit : Z; r_type : Z; r_period : Z; r_depth : Z }.

(* struct __liballocs_memrange_cache_entry_s, liballocs_cil_inlines.h:189-199.  The
   links are unsigned chars in C; slot numbers never exceed the capacity, which is
   below 32, so they are plain naturals here. *)
Record entry := mkE { e_rcd : rcd; e_prev : nat; e_next : nat }.

(* struct __liballocs_memrange_cache, liballocs_cil_inlines.h:204-213.  [c_size] is
   size_plus_one - 1; slot 0 is the null entry; the array is a function of the slot. *)
Record cache := mkC { c_valid : N; c_size : nat; c_victim : nat;
                      c_head : nat; c_tail : nat; c_ent : nat -> entry }.

Definition upd {A} (f : nat -> A) (i : nat) (x : A) : nat -> A :=
  fun j => if Nat.eqb j i then x else f j.

Definition set_next (e : entry) (k : nat) : entry := mkE (e_rcd e) (e_prev e) k.
Definition set_prev (e : entry) (k : nat) : entry := mkE (e_rcd e) k (e_next e).

(* cache->validity & (1u << (i-1)); the callers guarantee 1 <= i <= 32. *)
Definition valid (c : cache) (i : nat) : bool := N.testbit (c_valid c) (N.of_nat (i - 1)).

(* the initialiser of __liballocs_ool_cache, src/cache.c:7-10, with the capacity
   LIBALLOCS_MEMRANGE_CACHE_MAX_SIZE (liballocs_cil_inlines.h:201-203) a parameter *)
Definition init_cache (size : nat) : cache :=
  mkC 0 size 1 0 0 (fun _ => mkE (mkR 0 0 0 0 0) 0 0).

(* __liballocs_check_cache_sanity, liballocs_cil_inlines.h:216-248 (compiled in under
   DEBUG).  [walk] is its list loop: it stops with [false] on an assertion failure and
   otherwise returns the visited slots as a bit mask. *)
Fixpoint walk (fuel : nat) (c : cache) (nxt : entry -> nat) (i : nat) (seen : N)
  : res N :=
  match fuel with
  | O => Fuel
  | S f =>
    if Nat.eqb i 0 then Ok seen else
    if negb (valid c i) then Abort else
    if N.testbit seen (N.of_nat (i - 1)) then Abort else
    walk f c nxt (nxt (c_ent c i)) (N.setbit seen (N.of_nat (i - 1)))
  end.

Fixpoint visited_linear (c : cache) (k : nat) : N :=
  match k with
  | O => 0%N
  | S k' => if valid c k then N.setbit (visited_linear c k') (N.of_nat (k - 1))
            else visited_linear c k'
  end.

Definition sanity (c : cache) : res unit :=
  let lin := visited_linear c (c_size c) in
  do m <- walk (S (S (c_size c))) c e_next (c_head c) 0%N;
  if negb (N.eqb lin m) then Abort else
  do r <- walk (S (S (c_size c))) c e_prev (c_tail c) 0%N;
  if negb (N.eqb lin r) then Abort else Ok tt.

(* __liballocs_cache_unlink, liballocs_cil_inlines.h:250-267 *)
Definition unlink (c : cache) (i : nat) : cache :=
  let our_next := e_next (c_ent c i) in
  let our_prev := e_prev (c_ent c i) in
  let en1 := if Nat.eqb our_prev 0 then c_ent c
             else upd (c_ent c) our_prev (set_next (c_ent c our_prev) our_next) in
  let en2 := if Nat.eqb our_next 0 then en1
             else upd en1 our_next (set_prev (en1 our_next) our_prev) in
  mkC (N.clearbit (c_valid c) (N.of_nat (i - 1))) (c_size c) i
      (if Nat.eqb (c_head c) i then our_next else c_head c)
      (if Nat.eqb (c_tail c) i then our_prev else c_tail c) en2.

(* __liballocs_cache_push_head_mru, liballocs_cil_inlines.h:269-286 *)
Definition push_head_mru (c : cache) (i : nat) : cache :=
  let en1 := upd (c_ent c) i (mkE (e_rcd (c_ent c i)) 0 (c_head c)) in
  let en2 := if Nat.eqb (c_head c) 0 then en1
             else upd en1 (c_head c) (set_prev (en1 (c_head c)) i) in
  mkC (N.setbit (c_valid c) (N.of_nat (i - 1))) (c_size c) (c_victim c) i
      (if Nat.eqb (c_tail c) 0 then i else c_tail c) en2.

(* __liballocs_cache_bump_victim, liballocs_cil_inlines.h:288-302 *)
Definition bump_victim (c : cache) (i : nat) : cache :=
  if Nat.eqb (c_victim c) i then
    if Nat.ltb 0 (c_size c) then
      mkC (c_valid c) (c_size c) (1 + Nat.modulo i (c_size c))
          (c_head c) (c_tail c) (c_ent c)
    else c
  else c.

(* __liballocs_cache_bump_mru, liballocs_cil_inlines.h:304-315 *)
Definition bump_mru (c : cache) (i : nat) : cache :=
  if Nat.eqb (c_head c) i then c
  else push_head_mru (if valid c i then unlink c i else c) i.

(* the hit test of __liballocs_memrange_cache_lookup, liballocs_cil_inlines.h:333-346 *)
Definition hit_typed (obj t require_period : Z) (r : rcd) : bool :=
  let diff := obj - r_base r in
  (r_type r =? t) && (r_base r <=? obj) && (obj <? r_limit r) &&
  ((diff =? 0) ||
   (negb (r_period r =? 0) &&
    ((require_period =? 0) || (r_period r =? require_period)) &&
    (diff mod r_period r =? 0))).

(* the hit test of __liballocs_memrange_cache_lookup_notype,
   liballocs_cil_inlines.h:376-385 *)
Definition hit_untyped (obj require_period : Z) (r : rcd) : bool :=
  let diff := obj - r_base r in
  (r_base r <=? obj) && (obj <? r_limit r) &&
  (((diff =? 0) && (require_period =? 0)) ||
   (negb (r_period r =? 0) &&
    ((require_period =? 0) || (r_period r =? require_period)) &&
    (diff mod r_period r =? 0))).

(* the default (non-LINEAR) loop of both lookups, liballocs_cil_inlines.h:322-354 and
   365-393: walk the recency list from the head, stop at the first valid slot passing
   the test, move it to the front and return it. *)
Fixpoint find_slot (fuel : nat) (c : cache) (test : rcd -> bool) (i : nat) : res (option nat) :=
  match fuel with
  | O => Fuel
  | S f =>
    if Nat.eqb i 0 then Ok None else
    if valid c i && test (e_rcd (c_ent c i)) then Ok (Some i)
    else find_slot f c test (e_next (c_ent c i))
  end.

Definition lookup (c : cache) (test : rcd -> bool) : res (cache * option rcd) :=
  do o <- find_slot (S (S (c_size c))) c test (c_head c);
  match o with
  | Some i => let c' := bump_mru c i in Ok (c', Some (e_rcd (c_ent c' i)))
  | None => Ok (c, None)
  end.

(* __liballocs_get_cached_object_type, liballocs_cil_inlines.h:398-410; 0 is NULL *)
Definition get_cached_object_type (c : cache) (addr : Z) : res (cache * Z) :=
  do ' (c', o) <- lookup c (hit_untyped addr 0);
  Ok (c', match o with Some r => r_type r | None => 0 end).

(* __builtin_ffs(~validity) on a 32-bit validity: one plus the index of the lowest
   clear bit, 0 when all 32 bits are set. *)
Fixpoint first_clear (left i : nat) (v : N) : nat :=
  match left with
  | O => O
  | S k => if N.testbit v (N.of_nat i) then first_clear k (S i) v else S i
  end.
Definition ffs_clear (v : N) : nat := first_clear 32 0 v.

(* __liballocs_cache_with_type, liballocs_cil_inlines.h:413-446, in its default
   (non-FIFO) configuration.  The caller has already narrowed the period to an
   unsigned short.  Writing outside the entries array is UB, and so is ending up with
   slot 0: bump_mru would then shift by i-1 = -1. *)
Definition cache_with_type (c : cache) (r : rcd) : res cache :=
  let p := ffs_clear (c_valid c) in
  if Nat.ltb (S (c_size c)) p then Abort else
  let pos := if Nat.eqb p (S (c_size c)) then c_tail c else p in
  if Nat.eqb p (S (c_size c)) && Nat.eqb pos 0 then Abort else
  if Nat.eqb pos 0 || Nat.ltb (c_size c) pos then UB else
  let e := c_ent c pos in
  let c1 := mkC (c_valid c) (c_size c) (c_victim c) (c_head c) (c_tail c)
                (upd (c_ent c) pos (mkE r (e_prev e) (e_next e))) in
  Ok (bump_victim (bump_mru c1 pos) pos).

(* __liballocs_uncache_all, src/cache.c:13-33 *)
Definition uncache_test (p sz : Z) (r : rcd) : bool :=
  (p <=? r_base r) && (r_base r <? p + sz).

Fixpoint uncache_loop (left i : nat) (p sz : Z) (c : cache) : cache :=
  match left with
  | O => c
  | S k =>
    let c' := if valid c i && uncache_test p sz (e_rcd (c_ent c i))
              then let c1 := unlink c i in
                   mkC (c_valid c1) (c_size c1) i (c_head c1) (c_tail c1) (c_ent c1)
              else c in
    uncache_loop k (S i) p sz c'
  end.

Definition uncache_all (c : cache) (p sz : Z) : cache := uncache_loop (c_size c) 1 p sz c.

(* One call of the cache interface, and its visible result. *)
Inductive cop :=
| Fill (r : rcd)                       (* __liballocs_cache_with_type *)
| Look (obj t require_period : Z)      (* __liballocs_memrange_cache_lookup *)
| LookAny (obj require_period : Z)     (* __liballocs_memrange_cache_lookup_notype *)
| Uncache (p sz : Z).                  (* __liballocs_uncache_all *)

Definition cstep (c : cache) (o : cop) : res (cache * option rcd) :=
  match o with
  | Fill r => do c' <- cache_with_type c r; Ok (c', None)
  | Look obj t per => lookup c (hit_typed obj t per)
  | LookAny obj per => lookup c (hit_untyped obj per)
  | Uncache p sz => Ok (uncache_all c p sz, None)
  end.

Fixpoint crun (c : cache) (h : list cop) : res (cache * list (option rcd)) :=
  match h with
  | [] => Ok (c, [])
  | o :: h' =>
    do ' (c1, a) <- cstep c o;
    do ' (c2, as_) <- crun c1 h';
    Ok (c2, a :: as_)
  end.

(* ---- __liballocs_get_base, src/query.c:28-50 ---- *)

(* pointer_to___uniqtype____uninterpreted_byte, the type used for these fills *)
Definition BYTE : Z := 1.

(* What __liballocs_get_alloc_info reports for an address: the leaf object's base and
   size and whether its allocator is_cacheable; None is an error other than
   "unrecognised alloc site". *)
Definition info := Z -> option (Z * Z * bool).

(* The result None is NULL. *)
Definition get_base (c : cache) (inf : info) (obj : Z) : res (cache * option Z) :=
  let full c' :=
    match inf obj with
    | None => Ok (c', None)
    | Some (b, sz, cacheable) =>
      if cacheable : bool then do c2 <- cache_with_type c' (mkR b (b + sz) BYTE 1 0); Ok (c2, Some b)
      else Ok (c', Some b)
    end in
  do ' (c1, hit) <- lookup c (hit_untyped obj 0);
  match hit with
  | Some r => if r_depth r =? 0 then Ok (c1, Some (r_base r)) else full c1
  | None => full c1
  end.

(* A world of leaf objects, most recently created first, as seen by the queries. *)
Record obj := mkO { o_base : Z; o_size : Z; o_cacheable : bool }.

Definition contains (a : Z) (o : obj) : bool := (o_base o <=? a) && (a <? o_base o + o_size o).

Definition world_info (w : list obj) : info :=
  fun a => match find (contains a) w with
           | Some o => Some (o_base o, o_size o, o_cacheable o)
           | None => None
           end.

(* Events of a program using the allocators.  [EFree b u]: the object at b is freed and
   its allocator invalidates [b, b+u) as __generic_malloc_index_delete does
   (include/generic_malloc_index.h:446-449, u is the usable size); [EFreeSilent b]: it is
   freed without any invalidation, as src/allocators/mmap.c does.  [EOther o] is any other
   use of the cache interface. *)
Inductive event :=
| ECreate (o : obj)
| EFree (b u : Z)
| EFreeSilent (b : Z)
| EQuery (a : Z)
| EOther (o : cop).

Definition drop_at (b : Z) (w : list obj) : list obj :=
  filter (fun o => negb (o_base o =? b)) w.

Definition estep (cw : cache * list obj) (e : event) : res ((cache * list obj) * option Z) :=
  let '(c, w) := cw in
  match e with
  | ECreate o => Ok ((c, o :: w), None)
  | EFree b u => Ok ((uncache_all c b u, drop_at b w), None)
  | EFreeSilent b => Ok ((c, drop_at b w), None)
  | EQuery a => do ' (c', r) <- get_base c (world_info w) a; Ok ((c', w), r)
  | EOther o => do ' (c', _) <- cstep c o; Ok ((c', w), None)
  end.

Fixpoint erun (cw : cache * list obj) (es : list event) : res (cache * list obj) :=
  match es with
  | [] => Ok cw
  | e :: es' => do ' (cw', _) <- estep cw e; erun cw' es'
  end.
