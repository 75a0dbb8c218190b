(* Specification of heap metadata placement and of the metadata word, independent of the
   model's helpers. *)
From Verif Require Import Base.

(* A heap chunk: where it starts, how many bytes the underlying allocator says are usable,
   and how many bytes the program asked for. *)
Record chunk := mkChunk { c_base : Z; c_usable : Z; c_req : Z }.

(* Byte ranges [b, e) *)
Definition in_range (b e x : Z) : Prop := b <= x < e.
Definition caller_byte (c : chunk) (x : Z) : Prop := in_range (c_base c) (c_base c + c_req c) x.
Definition chunk_byte (c : chunk) (x : Z) : Prop := in_range (c_base c) (c_base c + c_usable c) x.

(* What the underlying allocator guarantees: it returns at least the bytes it was asked
   for ([asked]), the chunk does not wrap round the address space, and distinct live chunks
   are disjoint. *)
Definition heap_ok (asked : Z -> Z) (h : list chunk) : Prop :=
  (forall c, In c h -> 0 <= c_req c /\ 0 <= c_base c /\ asked (c_req c) <= c_usable c /\
                       c_base c + c_usable c <= 2 ^ 64) /\
  (forall c d x, In c h -> In d h -> c <> d -> chunk_byte c x -> ~ chunk_byte d x).

(* The types the queries of a history must report: the site's type until somebody sets
   another. [None] marks operations that report nothing. *)
Inductive mop := MQuery | MSet (u : Z) | MOther.
Fixpoint reported (u : Z) (h : list mop) : list (option Z) :=
  match h with
  | [] => []
  | MQuery :: h' => Some u :: reported u h'
  | MSet w :: h' => None :: reported w h'
  | MOther :: h' => None :: reported u h'
  end.
