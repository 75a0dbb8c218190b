(* Shared vocabulary: outcomes of modelled operations and page arithmetic. *)
From Coq Require Export List Arith ZArith Bool Lia.
From Coq Require Export ZifyBool ZifyNat.
Export ListNotations.
Ltac Zify.zify_post_hook ::= Z.div_mod_to_equations.

Open Scope Z_scope.

(* Outcome of a modelled C function.  [Abort] is an explicit abort() or a failed
   assert; [UB] is undefined behaviour; [Fuel] means the model's recursion bound
   was hit (theorems must exclude it). *)
Inductive res (A : Type) : Type :=
| Ok (a : A)
| Abort
| UB
| Fuel.
Arguments Ok {A} a.
Arguments Abort {A}.
Arguments UB {A}.
Arguments Fuel {A}.

Definition bind {A B} (r : res A) (f : A -> res B) : res B :=
  match r with Ok a => f a | Abort => Abort | UB => UB | Fuel => Fuel end.

Notation "'do' x <- e ; k" := (bind e (fun x => k))
  (at level 200, x name, e at level 100, k at level 200, right associativity).
Notation "'do' ' p <- e ; k" := (bind e (fun p => k))
  (at level 200, p pattern, e at level 100, k at level 200, right associativity).

(* PAGE_SIZE, liballocs_private.h; PAGENUM/ROUND_UP/ROUND_DOWN come from librunt's
   vas.h (absent from the checkout): modelled by their documented meaning on Z. *)
Definition PAGE : Z := 4096.
Definition PAGENUM (a : Z) : Z := a / PAGE.
Definition RDOWN (a : Z) : Z := (a / PAGE) * PAGE.
Definition RUP (a : Z) : Z := ((a + (PAGE - 1)) / PAGE) * PAGE.

(* Generic rounding to a positive alignment. *)
Definition rdown (a k : Z) : Z := (a / k) * k.
Definition rup (a k : Z) : Z := ((a + (k - 1)) / k) * k.

Definition W64 : Z := 2 ^ 64.
Definition W32 : Z := 2 ^ 32.
