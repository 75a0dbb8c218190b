(* Specification of the start-up scan of /proc/self/maps. *)
From Verif Require Import Base Big_model Big_spec Map_model Map_spec Scan_model.

(* What a line says about its pages.  Bits: 1 shared, 2 private, 32 anonymous. *)
Definition name_of (r : rest) : option Z := match r with RName f => Some f | _ => None end.
Definition line_attr (l : line) : attr :=
  mkAttr (l_prot l) ((if l_shared l then 1 else 2) + (match name_of (l_rest l) with None => 32 | Some _ => 0 end))
         (name_of (l_rest l)) 0.

(* The pages a line is to be recorded for.  Left out are the library's own tables, which are
   larger than any allocation, the kernel's pages, and the program break's memory; but what a
   "[heap]" line has below the end of the executable, at [xend], is the executable's bss. *)
Definition span (biggest xend : Z) (l : line) (lo hi : Z) : Prop :=
  l_second l - l_first l <= biggest /\ l_first l < 2 ^ 63 /\ lo = l_first l /\
  match l_rest l with
  | RHeap => lo < xend /\ hi = xend
  | _ => hi = l_second l
  end.
Definition listed (biggest xend : Z) (L : list line) (a : Z) (t : attr) : Prop :=
  exists l lo hi, In l L /\ span biggest xend l lo hi /\ lo <= a < hi /\ t = line_attr l.

(* every address of [lo,hi) is listed *)
Definition run (biggest xend : Z) (L : list line) (lo hi : Z) : Prop :=
  lo < hi /\ forall a, lo <= a < hi -> exists t, listed biggest xend L a t.

(* The pages are unknown to the library, or are exactly those of a mapping it has recorded
   with one entry, anonymous, that agrees with the line. *)
Definition unknown (S : mst) (lo hi : Z) : Prop := forall n, live (fo S) n -> ~ meets (fo S) n lo hi.
Definition known (S : mst) (l : line) (lo hi : Z) : Prop :=
  name_of (l_rest l) = None /\
  exists n, live (fo S) n /\ b_alloc (bigs (fo S) n) = MMAP /\ b_begin (bigs (fo S) n) = lo /\ b_end (bigs (fo S) n) = hi /\
    used (seqs S (priv_of S n)) = [mkE lo hi (l_prot l) ((if l_shared l then 1 else 2) + 32) (l_off l) true 0].

(* k records are free *)
Definition frees (nb : nat) (s : st) (k : nat) : Prop :=
  exists l, NoDup l /\ length l = k /\ forall n, In n l -> (1 <= n < nb)%nat /\ in_use (bigs s n) = false.

Definition stack_line (l : line) : Prop := exists f, l_rest l = RName f /\ f < 0.

(* What is asked of the lines: whole pages, in order, each classifiable; each unknown or
   known; a known one does not have listed pages on both sides, and no two known ones are
   connected by listed pages; listed pages run on for no more than the largest allocation; a
   free record for each line and two more; and at most one line for the stack, unknown, with
   the argument count in it. *)
Record scannable (nb : nat) (biggest xend argcp : Z) (S : mst) (L : list line) : Prop := {
  sn_page : forall l, In l L -> 0 < l_first l < l_second l /\ l_second l <= W64 /\
      l_first l mod PAGE = 0 /\ l_second l mod PAGE = 0 /\ l_rest l <> ROther;
  sn_order : ForallOrdPairs (fun x y => l_second x <= l_first y) L;
  sn_heap : forall l, In l L -> l_rest l = RHeap -> l_first l < xend -> xend <= l_second l /\ xend mod PAGE = 0;
  sn_state : forall l lo hi, In l L -> span biggest xend l lo hi -> unknown S lo hi \/ known S l lo hi;
  sn_side : forall l lo hi, In l L -> span biggest xend l lo hi -> known S l lo hi -> ~ run biggest xend L (lo - 1) (hi + 1);
  sn_two : forall l lo hi l' lo' hi', In l L -> In l' L -> span biggest xend l lo hi -> span biggest xend l' lo' hi' ->
      known S l lo hi -> known S l' lo' hi' -> lo < lo' -> ~ run biggest xend L lo hi';
  sn_size : forall lo hi, run biggest xend L lo hi -> hi - lo <= biggest;
  sn_free : frees nb (fo S) (2 + length L);
  sn_stack : forall l l', In l L -> In l' L -> stack_line l -> stack_line l' -> l = l';
  sn_argc : forall l lo hi, In l L -> stack_line l -> span biggest xend l lo hi -> lo < argcp <= hi }.

(* The stack's pages, from lo to the end of their mapping, which is at top or above, are
   divided: below the argument count they are the stack, and what is above belongs to the
   auxiliary vector. *)
Definition stack_at (s : st) (lo top argcp : Z) (au k : nat) : Prop :=
  exists m hi, top <= hi /\ live s m /\ b_alloc (bigs s m) = MMAP /\ b_begin (bigs s m) = lo /\ b_end (bigs s m) = hi /\
      view s au = Some (mkAttrs lo hi m AUXV 0 0 0) /\ view s k = Some (mkAttrs lo argcp au STACK FRAME 0 0).

(* What the scan does: the mappings recorded are those recorded before and those listed; the
   other allocations are as before, and if the stack is listed, two more describe it. *)
Record scanned (biggest xend argcp : Z) (L : list line) (S S' : mst) (our : nat) : Prop := {
  sd_rec : forall a t, recorded S' a t <-> recorded S a t \/ listed biggest xend L a t;
  sd_oth : forall m w, other S m w -> other S' m w;
  sd_nostack : (forall l lo hi, In l L -> stack_line l -> ~ span biggest xend l lo hi) ->
      our = 0%nat /\ forall m w, other S' m w -> other S m w;
  sd_stack : forall l lo hi, In l L -> stack_line l -> span biggest xend l lo hi ->
      exists k, stack_at (fo S') lo hi argcp our k /\
      forall m w, other S' m w -> other S m w \/ m = our \/ m = k }.

(* The address space once the lines are known: a listed address is as the line says. *)
Definition lists (biggest xend : Z) (l : line) (a : Z) : bool :=
  (l_second l - l_first l <=? biggest) && (l_first l <? 2 ^ 63) && (l_first l <=? a)
  && match l_rest l with RHeap => a <? xend | _ => a <? l_second l end.
Definition list_over (biggest xend : Z) (L : list line) (M : space) : space :=
  fun a => match find (fun l => lists biggest xend l a) L with Some l => Some (line_attr l) | None => M a end.
