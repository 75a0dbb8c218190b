(* The initial stack of a process, as the kernel lays it out, and what a query should say. *)
From Verif Require Import Base Auxv_model.

(* at [p]: the argument count, [n] argument pointers and a null, [m] environment pointers and a
   null, [k] auxiliary entries and a terminating one; then, after a gap, [len] bytes of strings *)
Definition stack_of (p n m k gap len : Z) : auxv :=
  let v := p + 8 in
  let e := v + 8 * (n + 1) in
  let x := e + 8 * (m + 1) in
  let s := x + 16 * (k + 1) + gap in
  mkAuxv p n v (v + 8 * n) e (e + 8 * m) x (x + 16 * k) s (s + len).

(* the objects: type, start and size *)
Definition objects (p n m k gap len : Z) : list (aty * Z * Z) :=
  let v := p + 8 in
  let e := v + 8 * (n + 1) in
  let x := e + 8 * (m + 1) in
  let s := x + 16 * (k + 1) + gap in
  [ (TIntptr, p, 8); (TArray TCharPtr (n + 1), v, 8 * (n + 1));
    (TArray TCharPtr (m + 1), e, 8 * (m + 1)); (TArray TAux (k + 1), x, 16 * (k + 1));
    (TArray TChar len, s, len) ].
Definition in_obj (x : Z) (o : aty * Z * Z) : Prop := let '(_, b, s) := o in b <= x < b + s.

(* the bytes, other than the first, of the terminating elements of the vectors *)
Definition in_terminator (p n m k : Z) (x : Z) : Prop :=
  let v := p + 8 in
  let e := v + 8 * (n + 1) in
  let a := e + 8 * (m + 1) in
  v + 8 * n < x < e \/ e + 8 * m < x < a \/ a + 16 * k < x < a + 16 * (k + 1).
