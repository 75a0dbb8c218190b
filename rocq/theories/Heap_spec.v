(* What a user of the heap index relies on, stated on the record table and the chunks the
   underlying allocator has handed out. *)
From Verif Require Import Base Big_model Big_spec.

(* A chunk: its address, the size asked for, and the size the underlying allocator reports
   (which has room for the eight-byte metadata word). *)
Record chunk := mkChunk { c_base : Z; c_req : Z; c_usable : Z }.
Definition c_end (c : chunk) : Z := c_base c + c_usable c.
Definition large (c : chunk) : bool := 131072 <? c_usable c.

Definition apart (c d : chunk) : Prop := c_end c <= c_base d \/ c_end d <= c_base c.
Definition chunk_eqb (c d : chunk) : bool := (c_base c =? c_base d) && (c_req c =? c_req d) && (c_usable c =? c_usable d).
Definition without (c : chunk) (C : list chunk) : list chunk := filter (fun d => negb (chunk_eqb c d)) C.

Record chunk_ok (c : chunk) : Prop := {
  ck_align : c_base c mod 16 = 0;
  ck_req : 0 < c_req c;
  ck_room : c_req c + 8 <= c_usable c;
  ck_top : c_end c < 2 ^ 64 }.

Section S.
Variable a : nat.   (* the heap allocator *)

Definition arena (s : st) (n : nat) (v : attrs) : Prop := view s n = Some v /\ a_sub v = a.
Definition holds (v : attrs) (c : chunk) : Prop := a_begin v <= c_base c /\ c_end c <= a_end v.
Definition kids_clear (s : st) (n : nat) (lo hi : Z) : Prop :=
  forall k w, view s k = Some w -> a_parent w = n -> a_end w <= lo \/ hi <= a_begin w.
(* a record standing for a large chunk *)
Definition stands (s : st) (p : nat) (v : attrs) (c : chunk) : Prop :=
  view s p = Some v /\ a_alloc v = a /\ a_begin v = c_base c /\ a_end v = c_base c + c_req c /\ a_parent v <> 0%nat.

(* The underlying allocator may hand out c: apart from every live chunk, inside one record
   with nothing else in it there, not over the start of a freed large chunk; the record is
   already an arena of ours, or nobody's and clear of our arenas. *)
Record may_alloc (nb : nat) (biggest : Z) (s : st) (C : list chunk) (D : list Z) (c : chunk) : Prop := {
  ma_ok : chunk_ok c;
  ma_apart : forall d, In d C -> apart c d;
  ma_stale : large c = false -> forall d, In d D -> d <= c_base c \/ c_end c <= d;
  ma_arena : exists n v, view s n = Some v /\ holds v c /\ kids_clear s n (c_base c) (c_end c) /\
     131072 <= a_begin v /\ a_alloc v <> a /\
     (a_sub v = a \/
      (a_sub v = 0%nat /\ a_subpriv v = 0%nat /\
       forall m w, arena s m w -> a_end w <= a_begin v \/ a_end v <= a_begin w));
  ma_room : large c = true -> has_free nb s /\ c_req c <= biggest }.

(* The rest of the system may take the table from s to s': our arenas keep their beginnings
   and stay apart, records of live chunks and arenas with live chunks in them stay, and
   nobody puts a record over a live small chunk or makes records in our name. *)
Record calm (C : list chunk) (s s' : st) : Prop := {
  cm_arena : forall n v', arena s' n v' -> exists v, arena s n v /\ a_begin v' = a_begin v /\ a_subpriv v' = a_subpriv v /\ a_alloc v' = a_alloc v;
  cm_one : forall n m v w x, arena s' n v -> arena s' m w -> a_begin v <= x < a_end v -> a_begin w <= x < a_end w -> n = m;
  cm_big : forall p v', view s' p = Some v' -> a_alloc v' = a -> exists v, view s p = Some v /\ a_alloc v = a /\ a_begin v = a_begin v' /\ a_end v = a_end v';
  cm_keep : forall c n v, In c C -> arena s n v -> holds v c -> exists v', arena s' n v' /\ holds v' c /\
     (large c = false -> kids_clear s' n (c_base c) (c_end c));
  cm_large : forall c p v, In c C -> large c = true -> stands s p v c -> exists v', stands s' p v' c }.

(* the table before and after c is recorded inside record n: a large chunk gets a record *)
Definition added (s s' : st) (n : nat) (c : chunk) : Prop :=
  if large c then exists p, view s p = None /\ forall m, view s' m = if Nat.eqb m p then Some (mkAttrs (c_base c) (c_base c + c_req c) n a 0 0 0) else view s m
  else forall m, view s' m = view s m.
(* ... and after it is forgotten: a large chunk's record goes, with any inside it *)
Definition removed (s s' : st) (c : chunk) : Prop :=
  if large c then exists p w DD, stands s p w c /\ subtree s p DD /\ forall m, view s' m = if existsb (Nat.eqb m) DD then None else view s m
  else forall m, view s' m = view s m.
End S.
