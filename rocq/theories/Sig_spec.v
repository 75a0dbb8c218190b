(* What a program may expect of its signal calls, of the numbers printed, and
   of the test for the first place. *)
From Coq Require Import ZArith List Bool.
Import ListNotations.
Local Open Scope Z_scope.

(* The decimal digits of a number: the right value, each between 0 and 9, and
   no leading zero. *)
Fixpoint val (ds : list Z) : Z :=
  match ds with [] => 0 | d :: r => d * 10 ^ Z.of_nat (length r) + val r end.
Definition decimal (v : Z) (ds : list Z) : Prop :=
  val ds = v /\ Forall (fun d => 0 <= d <= 9) ds /\ (ds = [0] \/ exists d r, ds = d :: r /\ d <> 0).

(* A path whose last component is f. *)
Definition last_component (f p : list Z) : Prop :=
  ~ In 47 f /\ (p = f \/ exists dir, p = dir ++ 47 :: f).
