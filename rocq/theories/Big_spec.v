(* What a user of the big-allocation forest relies on, stated on the records alone
   (no operation of the model is mentioned here). *)
From Verif Require Import Base Big_model.

(* A record is a live allocation. *)
Definition live (s : st) (n : nat) : Prop := n <> 0%nat /\ in_use (bigs s n) = true.

(* The allocation's half-open range covers an address / a whole page. *)
Definition covers (s : st) (n : nat) (a : Z) : Prop := b_begin (bigs s n) <= a < b_end (bigs s n).
Definition spans (s : st) (n : nat) (q : Z) : Prop :=
  b_begin (bigs s n) <= PAGE * q /\ PAGE * q + PAGE <= b_end (bigs s n).

Definition overlap (s : st) (m n : nat) : Prop := exists a, covers s m a /\ covers s n a.

(* [anc s a n]: a is n itself or one of its enclosing allocations. *)
Inductive anc (s : st) (a : nat) : nat -> Prop :=
| anc_refl : anc s a a
| anc_up n : b_parent (bigs s n) <> 0%nat -> anc s a (b_parent (bigs s n)) -> anc s a n.

(* The innermost live allocation covering an address: every live allocation that covers
   the address encloses it. *)
Definition innermost (s : st) (a : Z) (n : nat) : Prop :=
  live s n /\ covers s n a /\ forall m, live s m -> covers s m a -> anc s m n.

(* The answer of an address lookup: 0 stands for "no allocation". *)
Definition lookup_answer (s : st) (a : Z) (r : nat) : Prop :=
  if Nat.eqb r 0 then forall m, live s m -> ~ covers s m a
  else innermost s a r.

(* The live allocations form a containment forest. *)
Record forest (s : st) : Prop := {
  fo_range : forall n, live s n -> 0 < b_begin (bigs s n) < b_end (bigs s n);
  fo_parent : forall n, live s n -> b_parent (bigs s n) = 0%nat \/ live s (b_parent (bigs s n));
  fo_inside : forall n, live s n -> b_parent (bigs s n) <> 0%nat ->
      b_begin (bigs s (b_parent (bigs s n))) <= b_begin (bigs s n) /\
      b_end (bigs s n) <= b_end (bigs s (b_parent (bigs s n)));
  fo_sib : forall m n, live s m -> live s n -> m <> n ->
      b_parent (bigs s m) = b_parent (bigs s n) -> ~ overlap s m n;
  fo_acyclic : forall n, live s n -> b_parent (bigs s n) <> 0%nat -> ~ anc s n (b_parent (bigs s n));
  fo_aligned : forall n, live s n -> b_parent (bigs s n) = 0%nat ->
      b_begin (bigs s n) mod PAGE = 0 /\ b_end (bigs s n) mod PAGE = 0 }.

(* The doubly linked sibling list starting at [c] with predecessor [pv] is [l]. *)
Fixpoint sib_list (s : st) (pv c : nat) (l : list nat) : Prop :=
  match l with
  | [] => c = 0%nat
  | x :: r => c = x /\ x <> 0%nat /\ b_prev (bigs s x) = pv /\ sib_list s x (b_next (bigs s x)) r
  end.

(* Each live allocation's child list holds exactly the live allocations naming it as
   parent, once each, linked consistently in both directions; the top-level list,
   wherever it starts, likewise, in address order. *)
Definition links_ok (s : st) : Prop :=
  (forall p, live s p ->
     exists l, sib_list s 0 (b_first (bigs s p)) l /\ NoDup l /\
               forall c, In c l <-> (live s c /\ b_parent (bigs s c) = p)) /\
  (exists hd l, sib_list s 0 hd l /\ NoDup l /\
     (forall c, In c l <-> (live s c /\ b_parent (bigs s c) = 0%nat)) /\
     In (start s) l /\
     (forall i j, (i < j < length l)%nat ->
        b_end (bigs s (nth i l 0%nat)) <= b_begin (bigs s (nth j l 0%nat)))).

(* Everything a caller can read of an allocation except its place in a sibling list. *)
Record attrs := mkAttrs {
  a_begin : Z; a_end : Z; a_parent : nat; a_alloc : nat; a_sub : nat; a_priv : nat; a_subpriv : nat }.
Definition attrs_of (b : big) : attrs :=
  mkAttrs (b_begin b) (b_end b) (b_parent b) (b_alloc b) (b_sub b) (b_priv b) (b_subpriv b).

(* The observable contents of the table. *)
Definition view (s : st) (n : nat) : option attrs :=
  if negb (Nat.eqb n 0) && in_use (bigs s n) then Some (attrs_of (bigs s n)) else None.

(* The private-data callbacks owed when an allocation goes away. *)
Definition freed (a : attrs) : list nat :=
  (if Nat.eqb (a_priv a) 0 then [] else [a_priv a]) ++ (if Nat.eqb (a_subpriv a) 0 then [] else [a_subpriv a]).

(* [gone s s' D]: going from s to s' deleted exactly the allocations D, calling each
   one's callbacks once, and left every other allocation alone. *)
Record gone (s s' : st) (D : list nat) : Prop := {
  go_nodup : NoDup D;
  go_view : forall m, view s' m = if existsb (Nat.eqb m) D then None else view s m;
  go_log : log s' = log s ++ flat_map (fun m => freed (attrs_of (bigs s m))) D;
  go_start : start s' = start s }.

(* n was made by allocator a (or, with [bysub], has a as suballocator) *)
Definition has_alloc (s : st) (bysub : bool) (n a : nat) : Prop :=
  (if bysub then b_sub (bigs s n) else b_alloc (bigs s n)) = a.

(* the outermost live allocation covering x made by allocator a *)
Definition outermost (s : st) (bysub : bool) (x : Z) (a : nat) (n : nat) : Prop :=
  live s n /\ covers s n x /\ has_alloc s bysub n a /\
  forall m, live s m -> covers s m x -> has_alloc s bysub m a -> anc s n m.

(* The table of nb records has a free one. *)
Definition has_free (nb : nat) (s : st) : Prop := exists n, (1 <= n < nb)%nat /\ in_use (bigs s n) = false.

(* The requested range fits directly under p: inside it, clear of its children. *)
Definition fits (s : st) (p : nat) (lo hi : Z) : Prop :=
  0 < lo < hi /\
  (if Nat.eqb p 0 then lo mod PAGE = 0 /\ hi mod PAGE = 0
   else live s p /\ b_begin (bigs s p) <= lo /\ hi <= b_end (bigs s p)) /\
  forall c, live s c -> b_parent (bigs s c) = p -> b_end (bigs s c) <= lo \/ hi <= b_begin (bigs s c).

(* The parent the code will use. *)
Definition parent_choice (s : st) (mp p : nat) (lo hi : Z) : Prop :=
  if Nat.eqb mp 0 then lookup_answer s lo p /\ lookup_answer s (hi - 1) p else p = mp.

(* D lists n and everything under it *)
Definition subtree (s : st) (n : nat) (D : list nat) : Prop := forall x, In x D <-> (live s x /\ anc s n x).

(* [lo,hi) is an acceptable new range for n: overlapping the old one, inside n's parent,
   around n's children, clear of n's siblings, page aligned if n is top-level. *)
Record good_range (s : st) (n : nat) (lo hi : Z) : Prop := {
  gr_geo : 0 < lo < hi;
  gr_meet : lo < b_end (bigs s n) /\ b_begin (bigs s n) < hi;
  gr_in : b_parent (bigs s n) <> 0%nat ->
      b_begin (bigs s (b_parent (bigs s n))) <= lo /\ hi <= b_end (bigs s (b_parent (bigs s n)));
  gr_kids : forall c, live s c -> b_parent (bigs s c) = n -> lo <= b_begin (bigs s c) /\ b_end (bigs s c) <= hi;
  gr_sib : forall m, live s m -> m <> n -> b_parent (bigs s m) = b_parent (bigs s n) ->
      b_end (bigs s m) <= lo \/ hi <= b_begin (bigs s m);
  gr_align : b_parent (bigs s n) = 0%nat -> lo mod PAGE = 0 /\ hi mod PAGE = 0 }.

(* Going from s to s' changed exactly n's range, to [lo,hi). *)
Definition resized (s s' : st) (n : nat) (lo hi : Z) : Prop :=
  (forall m, view s' m = if Nat.eqb m n
     then Some (mkAttrs lo hi (b_parent (bigs s n)) (b_alloc (bigs s n)) (b_sub (bigs s n)) (b_priv (bigs s n)) (b_subpriv (bigs s n)))
     else view s m) /\ start s' = start s /\ log s' = log s.

(* What a request to grow n down to b asks of n and of each enclosing allocation: each
   parent is asked to reach its child's request rounded down to the parent's own
   minimum alignment. *)
Inductive wants (s : st) (al : nat -> Z) (n : nat) (b : Z) : nat -> Z -> Prop :=
| wants_self : wants s al n b n b
| wants_up m r : wants s al n b m r -> b_parent (bigs s m) <> 0%nat ->
    wants s al n b (b_parent (bigs s m))
      (let a := al (b_alloc (bigs s (b_parent (bigs s m)))) in if a =? 0 then r else rdown r a).

(* The region each of those would gain is free of its siblings, and page aligned at top level. *)
Definition room (s : st) (biggest : Z) (m : nat) (r : Z) : Prop :=
  let lo := Z.min r (b_begin (bigs s m)) in
  0 < r /\ b_end (bigs s m) - lo <= biggest /\
  (forall x, live s x -> x <> m -> b_parent (bigs s x) = b_parent (bigs s m) ->
     b_end (bigs s x) <= lo \/ b_end (bigs s m) <= b_begin (bigs s x)) /\
  (b_parent (bigs s m) = 0%nat -> lo mod PAGE = 0).

(* attributes with the beginning lowered to r *)
Definition lowered (a : attrs) (r : Z) : attrs :=
  mkAttrs (Z.min r (a_begin a)) (a_end a) (a_parent a) (a_alloc a) (a_sub a) (a_priv a) (a_subpriv a).

(* sp is a page boundary strictly inside b, and no child of b straddles it *)
Definition splittable (s : st) (b : nat) (sp : Z) : Prop :=
  live s b /\ sp mod PAGE = 0 /\ b_begin (bigs s b) < sp < b_end (bigs s b) /\
  forall c, live s c -> b_parent (bigs s c) = b -> b_end (bigs s c) <= sp \/ sp <= b_begin (bigs s c).

(* the table after splitting b at sp with nw the new record *)
Definition split_view (s : st) (b nw : nat) (sp : Z) (m : nat) : option attrs :=
  let t := attrs_of (bigs s b) in
  if Nat.eqb m b then Some (mkAttrs (a_begin t) sp (a_parent t) (a_alloc t) (a_sub t) (a_priv t) (a_subpriv t))
  else if Nat.eqb m nw then Some (mkAttrs sp (a_end t) (a_parent t) (a_alloc t) (a_sub t) (a_priv t) (a_subpriv t))
  else match view s m with
       | Some a => Some (if Nat.eqb (a_parent a) b && (sp <=? a_begin a)
                         then mkAttrs (a_begin a) (a_end a) nw (a_alloc a) (a_sub a) (a_priv a) (a_subpriv a) else a)
       | None => None
       end.

(* Top-level allocations are the memory mappings. *)
Definition toplevel (s : st) (r : nat) : Prop := live s r /\ b_parent (bigs s r) = 0%nat.
Definition meets (s : st) (r : nat) (lo hi : Z) : Prop := exists a, lo <= a < hi /\ covers s r a.

(* x is, or lies under, a mapping meeting [lo,hi) *)
Definition doomed (s : st) (lo hi : Z) (x : nat) : Prop :=
  live s x /\ exists r, toplevel s r /\ meets s r lo hi /\ anc s r x.

(* number of enclosing allocations, counting itself *)
Inductive level (s : st) : nat -> nat -> Prop :=
| level_0 : level s 0 0
| level_S n d : n <> 0%nat -> level s (b_parent (bigs s n)) d -> level s n (S d).

(* the innermost live allocation covering both addresses *)
Definition innermost_both (s : st) (x y : Z) (r : nat) : Prop :=
  live s r /\ covers s r x /\ covers s r y /\
  forall m, live s m -> covers s m x -> covers s m y -> anc s m r.

(* Nothing lives between the page of [ptr] and the stack. *)
Definition gap_free (s : st) (b : nat) (ptr : Z) : Prop :=
  forall m a, live s m -> RDOWN ptr <= a < b_begin (bigs s b) -> ~ covers s m a.

(* The address is close enough below the stack. *)
Definition near (cur max : Z) (s : st) (b : nat) (ptr : Z) : Prop :=
  ptr < b_begin (bigs s b) /\
  (b_begin (bigs s b) - ptr < (if (cur =? -1) && (max =? -1) then 256 * 1024 else if cur =? -1 then max else cur) \/
   b_end (bigs s b) - ptr < (if (cur =? -1) && (max =? -1) then 16 * 1024 * 1024 else if cur =? -1 then max else cur)).
