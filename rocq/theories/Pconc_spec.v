(* What the library's own code relies on of its heap when threads use it at once. *)
From Verif Require Import Base.

(* memory given out: where it begins and its length *)
Definition apart (a b : Z * Z) : Prop := fst a + snd a <= fst b \/ fst b + snd b <= fst a.
Definition inside (base limit : Z) (a : Z * Z) : Prop := base <= fst a /\ fst a + snd a <= limit.
