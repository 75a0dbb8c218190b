(* What a program relies on when it asks for, or changes, the type of a heap object: each live
   object has one type, its allocation site's until somebody sets another. *)
From Verif Require Import Base Big_model Heap_spec.

(* the types of the live objects *)
Definition types := chunk -> Z.
Definition now (Y : types) (c : chunk) (u : Z) : types := fun d => if chunk_eqb c d then u else Y d.

(* an address among the bytes the program asked for *)
Definition inside (c : chunk) (x : Z) : Prop := c_base c <= x < c_base c + c_req c.

(* descriptors the library can recognise: mapped at or above 2^35, eight-byte aligned *)
Definition proper (u : Z) : Prop := 2 ^ 35 <= u < 2 ^ 47 /\ u mod 8 = 0.

(* The program and its allocator may write anywhere except the last eight bytes of a live small
   chunk, which lie beyond what was asked for. *)
Definition respects (C : list chunk) (m m' : Z -> Z) : Prop :=
  forall c x, In c C -> large c = false -> c_end c - 8 <= x < c_end c -> m' x = m x.
Definition bytes (m : Z -> Z) : Prop := forall x, 0 <= m x < 256.
