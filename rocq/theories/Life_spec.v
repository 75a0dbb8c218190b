(* What a client of lifetime policies is promised, as a judgement on histories (newest event
   first).  Independent of the model's bit masks and loops. *)
From Verif Require Import Base Life_model.

(* is policy i attached to object o after the history? *)
Fixpoint att (l : list event) (o : nat) (i : Z) : bool :=
  match l with
  | [] => false
  | e :: r =>
      match e with
      | ENew o' => if Nat.eqb o' o then i =? 0 else att r o i
      | EAttach j o' => if Nat.eqb o' o && (j =? i) then true else att r o i
      | EDetach j o' => if Nat.eqb o' o && (j =? i) then false else att r o i
      | EFree o' => if Nat.eqb o' o && (i =? 0) then false else att r o i
      | ERelease _ => att r o i
      end
  end.
Definition allocated (l : list event) (o : nat) : Prop := In (ENew o) l.
Fixpoint releases (l : list event) (o : nat) : nat :=
  match l with
  | [] => 0
  | ERelease o' :: r => if Nat.eqb o' o then S (releases r o) else releases r o
  | _ :: r => releases r o
  end.
(* every release in the history came after the object was made, with no policy attached, and
   was the first one *)
Definition no_early (l : list event) : Prop := forall l1 o l2, l = l1 ++ ERelease o :: l2 ->
  allocated l2 o /\ (forall i, att l2 o i = false) /\ releases l2 o = 0%nat.
