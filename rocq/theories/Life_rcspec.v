(* How many pointers in use refer to an object: the specification of reference counting. *)
From Verif Require Import Base Life_model Life_spec.

(* the objects made so far *)
Definition objs (l : list event) : list nat := flat_map (fun e => match e with ENew o => [o] | _ => [] end) l.
Definition points (v : option nat) (o : nat) : bool := match v with Some p => Nat.eqb p o | None => false end.
(* the pointer slots in use: the program's own (roots) and those inside objects not yet released *)
Definition active (roots : list nat) (g : gst) : list nat :=
  roots ++ flat_map (fun o => if o_live (g_obj g o) then o_slots (g_obj g o) else []) (objs (g_log g)).
(* how many of them hold object o *)
Definition refs (roots : list nat) (g : gst) (o : nat) : nat := length (filter (fun s => points (g_mem g s) o) (active roots g)).
