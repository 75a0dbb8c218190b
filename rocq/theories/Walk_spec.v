(* Specification of the depth-first walk: the tree of things contained in a scope, and the
   standard pre-order traversal of a tree with pruning and stopping. *)
From Verif Require Import Base Type_model Type_spec Walk_model.
From Coq Require Import Sorting.Sorted.

Inductive node := Node (l : label) (kids : list node).

(* -1 prunes, another non-zero result stops and is the result *)
Fixpoint visit_node {St : Type} (cb : St -> label -> St * Z) (s : St) (n : node) : St * Z :=
  let fix go (s : St) (ns : list node) : St * Z :=
    match ns with
    | [] => (s, 0)
    | n :: ns' => let '(s1, r) := visit_node cb s n in if r =? 0 then go s1 ns' else (s1, r)
    end in
  match n with
  | Node l kids =>
      let '(s1, r) := cb s l in
      if r =? 0 then go s1 kids else if r =? -1 then (s1, 0) else (s1, r)
  end.
Fixpoint traverse {St : Type} (cb : St -> label -> St * Z) (s : St) (ns : list node) : St * Z :=
  match ns with
  | [] => (s, 0)
  | n :: ns' => let '(s1, r) := visit_node cb s n in if r =? 0 then traverse cb s1 ns' else (s1, r)
  end.

(* labels in pre-order *)
Fixpoint preorder (n : node) : list label :=
  match n with Node l kids => l :: flat_map preorder kids end.

(* What lies directly in a scope: a description of each thing and, where it can itself
   contain things, the scope it is.  A typed allocation that is also a child big
   allocation is opened as a big allocation. *)
Record item := mkItem { i_big : option Z; i_obj : Z; i_type : option ty; i_site : Z;
                        i_coord : Z; i_in : option scope }.

Inductive holds : Z -> scope -> Z -> item -> Prop :=
| holds_plain base b aid ks i k :
    b_sub b = Walks aid ks -> nth_error ks i = Some k -> k_type k = None ->
    base <= k_obj k < b_end b ->
    holds base (SBig b) (Z.of_nat i) (mkItem None (k_obj k) None (k_site k) (Z.of_nat i + 1) None)
| holds_typed base b aid ks i k t :
    b_sub b = Walks aid ks -> nth_error ks i = Some k -> k_type k = Some t ->
    (forall c, In c (b_children b) -> b_begin c <> k_obj k) ->
    base <= k_obj k < b_end b ->
    holds base (SBig b) (Z.of_nat i) (mkItem None (k_obj k) (Some t) (k_site k) (Z.of_nat i + 1) (Some (STy t)))
| holds_big base b aid ks i k t j c :
    b_sub b = Walks aid ks -> nth_error ks i = Some k -> k_type k = Some t ->
    nth_error (b_children b) j = Some c -> b_begin c = k_obj k ->
    (forall j' c', (j' < j)%nat -> nth_error (b_children b) j' = Some c' -> b_begin c' <> k_obj k) ->
    base <= k_obj k < b_end b ->
    holds base (SBig b) (Z.of_nat i)
      (mkItem (Some (b_id c)) (k_obj k) (Some t) (k_site k) (Z.of_nat i + 1) (Some (SBig c)))
| holds_elem base id size len e i :
    0 <= i < len ->
    holds base (STy (TArr id size len e)) i (mkItem None (base + i * tsize e) (Some e) 0 (i + 1) (Some (STy e)))
| holds_memb base id size ms i off m :
    nth_error ms i = Some (off, m) ->
    holds base (STy (TComp id size ms)) (Z.of_nat i)
      (mkItem None (base + off) (Some m) 0 (Z.of_nat i + 1) (Some (STy m))).

Definition walkable (sc : scope) : Prop :=
  match sc with SBig b => exists aid ks, b_sub b = Walks aid ks | STy _ => True end.

(* the complete list, by increasing index *)
Definition lists (base : Z) (sc : scope) (its : list item) : Prop :=
  walkable sc /\ exists ps, map snd ps = its /\ StronglySorted Z.lt (map fst ps) /\
    forall i it, In (i, it) ps <-> holds base sc i it.

Definition lab (base : Z) (sc : scope) (path : list link) (it : item) : label :=
  mkLab (i_big it) (i_obj it) (i_type it) (i_site it) (mkLink base (place sc) (i_coord it) :: path).

(* [unfolds base sc path ns]: ns is the forest of everything below the scope *)
Inductive unfolds : Z -> scope -> list link -> list node -> Prop :=
| unf base sc path its ns : lists base sc its -> unfold_all base sc path its ns -> unfolds base sc path ns
with unfold_all : Z -> scope -> list link -> list item -> list node -> Prop :=
| ua_nil base sc path : unfold_all base sc path [] []
| ua_leaf base sc path it its ns :
    i_in it = None -> unfold_all base sc path its ns ->
    unfold_all base sc path (it :: its) (Node (lab base sc path it) [] :: ns)
| ua_node base sc path it sc' kids its ns :
    i_in it = Some sc' ->
    unfolds (i_obj it) sc' (mkLink base (place sc) (i_coord it) :: path) kids ->
    unfold_all base sc path its ns ->
    unfold_all base sc path (it :: its) (Node (lab base sc path it) kids :: ns).
Scheme unfolds_mind := Minimality for unfolds Sort Prop
  with unfold_all_mind := Minimality for unfold_all Sort Prop.
Combined Scheme unfolds_ind2 from unfolds_mind, unfold_all_mind.

(* Every big allocation that the walk can open can be walked. *)
Inductive openable : big -> Prop :=
| open_big b aid ks : b_sub b = Walks aid ks ->
    (forall k t c, In k ks -> k_type k = Some t -> In c (b_children b) -> b_begin c = k_obj k -> openable c) ->
    openable b.

(* the members of every node in address order *)
Inductive address_order : list node -> Prop :=
| ao ns : StronglySorted (fun a b => match a, b with Node l _, Node l' _ => l_obj l <= l_obj l' end) ns ->
    (forall l kids, In (Node l kids) ns -> address_order kids) -> address_order ns.

(* Allocations listed by address, members by offset, sizes unsigned *)
Inductive in_order : scope -> Prop :=
| io_ty t : unsigned t -> members_sorted t -> in_order (STy t)
| io_big b :
    (forall aid ks, b_sub b = Walks aid ks ->
       StronglySorted (fun a b => k_obj a <= k_obj b) ks /\
       (forall k t, In k ks -> k_type k = Some t -> in_order (STy t) /\
          forall c, In c (b_children b) -> b_begin c = k_obj k -> in_order (SBig c))) ->
    in_order (SBig b).

(* The references a reference walk should report: an object that is a reference, and
   otherwise, if it may contain references, those among its contents. *)
Fixpoint outer_refs (can : label -> Z) (may : label -> bool) (n : node) : list label :=
  match n with
  | Node l kids =>
      if negb (can l =? 0) then [l]
      else if may l then flat_map (outer_refs can may) kids else []
  end.

Fixpoint feed {St : Type} (cb : St -> label -> St * Z) (s : St) (ls : list label) : St * Z :=
  match ls with
  | [] => (s, 0)
  | l :: ls' => let '(s1, r) := cb s l in if r =? 0 then feed cb s1 ls' else (s1, r)
  end.
