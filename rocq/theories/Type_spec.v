(* Specification of subobjects, independent of the searches. *)
From Verif Require Import Base Type_model.

(* [sub t o t']: a subobject of type t' begins at offset o of an object of type t *)
Inductive sub : ty -> Z -> ty -> Prop :=
| sub_self t : sub t 0 t
| sub_elem id size len e i o t' :
    0 <= i < len -> sub e o t' -> sub (TArr id size len e) (i * tsize e + o) t'
| sub_memb id size ms off m o t' :
    In (off, m) ms -> sub m o t' -> sub (TComp id size ms) (off + o) t'.

(* Sizes and offsets are unsigned quantities. *)
Inductive unsigned : ty -> Prop :=
| un_leaf id size : 0 <= size -> unsigned (TLeaf id size)
| un_arr id size len e : 0 <= size -> 0 <= len -> unsigned e -> unsigned (TArr id size len e)
| un_comp id size ms : 0 <= size -> (forall off m, In (off, m) ms -> 0 <= off /\ unsigned m) ->
    unsigned (TComp id size ms).

(* offsets in non-decreasing order *)
Fixpoint sorted (ms : list (Z * ty)) : Prop :=
  match ms with
  | (o, _) :: ((o', _) :: _) as ms' => o <= o' /\ sorted ms'
  | _ => True
  end.

(* Well-formed layout: everything lies inside what contains it, members are sorted, and
   members at different offsets do not overlap (members sharing an offset may: unions). *)
Inductive laid_out : ty -> Prop :=
| lo_leaf id size : 0 <= size -> laid_out (TLeaf id size)
| lo_arr id size len e : 0 <= len -> len * tsize e <= size -> laid_out e ->
    laid_out (TArr id size len e)
| lo_comp id size ms : 0 <= size -> sorted ms ->
    (forall off m, In (off, m) ms -> 0 <= off /\ off + tsize m <= size /\ laid_out m) ->
    (forall off m off' m', In (off, m) ms -> In (off', m') ms -> off < off' ->
        off + tsize m <= off') ->
    laid_out (TComp id size ms).

(* No array has elements of size zero. *)
Inductive no_empty_elems : ty -> Prop :=
| ne_leaf id size : no_empty_elems (TLeaf id size)
| ne_arr id size len e : 0 < tsize e -> no_empty_elems e -> no_empty_elems (TArr id size len e)
| ne_comp id size ms : (forall off m, In (off, m) ms -> no_empty_elems m) ->
    no_empty_elems (TComp id size ms).

Inductive members_sorted : ty -> Prop :=
| ms_leaf id size : members_sorted (TLeaf id size)
| ms_arr id size len e : members_sorted e -> members_sorted (TArr id size len e)
| ms_comp id size ms : sorted ms -> (forall off m, In (off, m) ms -> members_sorted m) ->
    members_sorted (TComp id size ms).

Fixpoint height (t : ty) : nat :=
  match t with
  | TLeaf _ _ => 1
  | TArr _ _ _ e => S (height e)
  | TComp _ _ ms => S (fold_right (fun p a => Nat.max (height (snd p)) a) O ms)
  end.

(* A position in the containment tree: the member (or element-type) index chosen at each
   level, outermost first. [reach t o p v]: following [p] from an object of type t, always
   to the array element containing offset o, or to a member at the greatest offset not
   exceeding o, leads to the subobject described by v. *)
Inductive reach : ty -> Z -> Z -> Z -> list nat -> visit -> Prop :=
| reach_elem id size len e o a d :
    o / tsize e < len ->
    reach (TArr id size len e) o a d [O]
      (mkV e (a + o / tsize e * tsize e) (d + 1) O a)
| reach_elem_in id size len e o a d p v :
    o / tsize e < len ->
    reach e (o mod tsize e) (a + o / tsize e * tsize e) (d + 1) p v ->
    reach (TArr id size len e) o a d (O :: p) v
| reach_memb id size ms o a d i off m :
    nth_error ms i = Some (off, m) -> off <= o < size ->
    (forall off' m', In (off', m') ms -> off' <= o -> off' <= off) ->
    reach (TComp id size ms) o a d [i] (mkV m (a + off) (d + 1) i a)
| reach_memb_in id size ms o a d i off m p v :
    nth_error ms i = Some (off, m) -> off <= o < size ->
    (forall off' m', In (off', m') ms -> off' <= o -> off' <= off) ->
    reach m (o - off) (a + off) (d + 1) p v ->
    reach (TComp id size ms) o a d (i :: p) v.

(* lexicographic order on positions: a containing object before what it contains, then by
   member index *)
Fixpoint before (p q : list nat) : Prop :=
  match p, q with
  | [], _ :: _ => True
  | i :: p', j :: q' => (i < j)%nat \/ (i = j /\ before p' q')
  | _, _ => False
  end.

(* calling back over a list of visits, stopping at the first non-zero result *)
Fixpoint call_back {St : Type} (cb : St -> visit -> St * Z) (s : St) (vs : list visit) : St * Z :=
  match vs with
  | [] => (s, 0)
  | v :: vs' => let '(s1, r) := cb s v in if r =? 0 then call_back cb s1 vs' else (s1, r)
  end.

(* [inside t p v]: proper subobject at position p, starting at offset v_start from where t
   starts — every one, near the queried offset or not *)
Inductive inside : ty -> Z -> Z -> list nat -> visit -> Prop :=
| in_elem id size len e a d i :
    0 <= i < len ->
    inside (TArr id size len e) a d [O] (mkV e (a + i * tsize e) (d + 1) O a)
| in_elem_in id size len e a d i p v :
    0 <= i < len -> inside e (a + i * tsize e) (d + 1) p v ->
    inside (TArr id size len e) a d (O :: p) v
| in_memb id size ms a d i off m :
    nth_error ms i = Some (off, m) ->
    inside (TComp id size ms) a d [i] (mkV m (a + off) (d + 1) i a)
| in_memb_in id size ms a d i off m p v :
    nth_error ms i = Some (off, m) -> inside m (a + off) (d + 1) p v ->
    inside (TComp id size ms) a d (i :: p) v.

(* No padding, and union members of equal size: wherever an offset falls inside a composite
   at or after some member, every member at the greatest such offset covers it. *)
Inductive filled : ty -> Prop :=
| fi_leaf id size : filled (TLeaf id size)
| fi_arr id size len e : filled e -> filled (TArr id size len e)
| fi_comp id size ms :
    (forall off m, In (off, m) ms -> filled m) ->
    (forall off m o, In (off, m) ms -> off <= o < size ->
       (forall off' m', In (off', m') ms -> off' <= o -> off' <= off) -> o < off + tsize m) ->
    filled (TComp id size ms).
