(* Where a type's pointers are. *)
From Verif Require Import Base Copy_model.

(* the addresses of the pointers in an object of type t at address b, in order *)
Fixpoint ptrs (t : ty) (b : Z) : list Z :=
  match t with
  | BaseT _ => []
  | Ptr => [b]
  | Arr n e => flat_map (fun i => ptrs e (b + Z.of_nat i * sizeof e)) (seq 0 (Z.to_nat n))
  | Comp _ ms => (fix go l := match l with [] => [] | (off, m) :: r => ptrs m (b + off) ++ go r end) ms
  end.

(* sizes make sense: members lie within their composite *)
Fixpoint wf (t : ty) : Prop :=
  match t with
  | BaseT sz => 0 <= sz < W64
  | Ptr => True
  | Arr n e => wf e /\ 0 <= n < 2 ^ 32 /\ 0 <= n * sizeof e < W64
  | Comp sz ms => 0 <= sz < W64 /\ (fix all l := match l with [] => True | (off, m) :: r => (wf m /\ 0 <= off /\ off + sizeof m <= sz) /\ all r end) ms
  end.

(* The first [size] bytes stop inside no composite before the start of a member that has
   pointers. *)
Fixpoint fits (t : ty) (size : Z) : Prop :=
  match t with
  | BaseT _ => True
  | Ptr => True
  | Arr n e => n * sizeof e <= size \/ size mod sizeof e = 0 \/ fits e (size mod sizeof e)
  | Comp _ ms => (fix all l := match l with [] => True | (off, m) :: r => (need m = true -> off <= size /\ fits m (Z.min (size - off) (sizeof m))) /\ all r end) ms
  end.

(* no union: the members of each composite follow one another *)
Fixpoint nounion (t : ty) : Prop :=
  match t with
  | BaseT _ => True
  | Ptr => True
  | Arr _ e => nounion e
  | Comp _ ms => (fix all (lo : Z) l := match l with [] => True | (off, m) :: r => lo <= off /\ nounion m /\ all (off + sizeof m) r end) 0 ms
  end.

(* objects of types ts one after another from address d *)
Fixpoint laid (tyat : Z -> option ty) (d : Z) (ts : list ty) : Prop :=
  match ts with [] => True | t :: r => tyat d = Some t /\ wf t /\ 0 < sizeof t /\ laid tyat (d + sizeof t) r end.
Definition total (ts : list ty) : Z := fold_right (fun t z => sizeof t + z) 0 ts.
Fixpoint all_ptrs (d : Z) (ts : list ty) : list Z := match ts with [] => [] | t :: r => ptrs t d ++ all_ptrs (d + sizeof t) r end.
(* where n bytes end: between objects, or inside one that has pointers, at a suitable place *)
Definition ends (ts : list ty) (n : Z) : Prop := forall a t b, ts = a ++ t :: b -> total a + 8 <= n < total a + sizeof t -> need t = true /\ fits t (n - total a).
