(* Specification of the breadth-first walk: paths in a graph. *)
From Verif Require Import Base Bfs_model.

(* [path G r n x]: x is n steps from r *)
Inductive path (G : node -> list node) (r : node) : nat -> node -> Prop :=
| path_0 : path G r O r
| path_S n x y : path G r n x -> In y (G x) -> path G r (S n) y.

Definition reachable G r x : Prop := exists n, path G r n x.

(* x is reached at distance n and no sooner *)
Definition distance G r x n : Prop := path G r n x /\ forall m, path G r m x -> (n <= m)%nat.

(* Every object is reached at one type only. *)
Definition one_type G r : Prop :=
  forall o t t', reachable G r (o, t) -> reachable G r (o, t') -> t = t'.

(* Finitely many objects are reachable, within a 2 GiB window *)
Definition finite_within G r (objs : list Z) (w : Z) : Prop :=
  forall o t, reachable G r (o, t) -> In o objs /\ w <= o < w + 2 ^ 31.

(* The pointer fields of an object of a given type: the offsets of pointers in it, at any
   depth, with their static pointee types. *)
Inductive ptr_field (pointee : Z -> option Z) : Type_model.ty -> Z -> Z -> Prop :=
| pf_elem id size len e i pt : 0 <= i < len -> pointee (Type_model.tid e) = Some pt ->
    ptr_field pointee (Type_model.TArr id size len e) (i * Type_model.tsize e) pt
| pf_elem_in id size len e i o pt : 0 <= i < len -> pointee (Type_model.tid e) = None ->
    ptr_field pointee e o pt ->
    ptr_field pointee (Type_model.TArr id size len e) (i * Type_model.tsize e + o) pt
| pf_memb id size ms off m pt : In (off, m) ms -> pointee (Type_model.tid m) = Some pt ->
    ptr_field pointee (Type_model.TComp id size ms) off pt
| pf_memb_in id size ms off m o pt : In (off, m) ms -> pointee (Type_model.tid m) = None ->
    ptr_field pointee m o pt ->
    ptr_field pointee (Type_model.TComp id size ms) (off + o) pt.

(* No array except possibly at the top *)
Inductive no_inner_arrays : Type_model.ty -> Prop :=
| ni_leaf id size : no_inner_arrays (Type_model.TLeaf id size)
| ni_comp id size ms : (forall off m, In (off, m) ms -> no_inner_arrays m) ->
    no_inner_arrays (Type_model.TComp id size ms).
Inductive flat : Type_model.ty -> Prop :=
| fl_arr id size len e : no_inner_arrays e -> flat (Type_model.TArr id size len e)
| fl_other t : no_inner_arrays t -> flat t.

(* the address test applied to stored pointers: all ones, or between 4 MiB and 2^47 *)
Definition looks_valid (p : Z) : Prop := p = 2 ^ 64 - 1 \/ 2 ^ 22 <= p < 2 ^ 47.

(* a first-in first-out queue as a list; [Some n] pushes n, [None] pops *)
Definition fifo (l : list nat) (o : option nat) : list nat * option nat :=
  match o with
  | Some n => (l ++ [n], None)
  | None => match l with [] => ([], None) | x :: l' => (l', Some x) end
  end.
(* nothing is pushed while already queued *)
Fixpoint no_requeue (l : list nat) (ops : list (option nat)) : Prop :=
  match ops with
  | [] => True
  | o :: ops' => match o with Some n => ~ In n l | None => True end /\ no_requeue (fst (fifo l o)) ops'
  end.
Fixpoint fifo_run (l : list nat) (ops : list (option nat)) : list (option nat) :=
  match ops with
  | [] => []
  | o :: ops' => snd (fifo l o) :: fifo_run (fst (fifo l o)) ops'
  end.
