(* Model of the allocation walks: src/walk.c.  Definitions only. *)
From Verif Require Import Base Type_model.

(* An allocation as its allocator's walk_allocations reports it: address, type (NULL is
   None) and site.  The only allocator in /repo that provides walk_allocations
   (src/allocators/packed-seq.c:404-468) passes NULL for the big allocation. *)
Record chunk := mkK { k_obj : Z; k_type : option ty; k_site : Z }.

(* A big allocation's suballocator: absent; one whose walk_allocations member is NULL; or
   one that can be walked, with its allocations under this big allocation in order.  The
   number identifies the allocator. *)
Inductive subw := NoSub | NoWalk (id : Z) | Walks (id : Z) (ks : list chunk).

(* struct big_allocation, include/pageindex.h, as far as the walk reads it *)
Inductive big := Big (id beg fin by_ : Z) (sub : subw) (children : list big).
Definition b_id b := match b with Big i _ _ _ _ _ => i end.
Definition b_begin b := match b with Big _ x _ _ _ _ => x end.
Definition b_end b := match b with Big _ _ x _ _ _ => x end.
Definition b_by b := match b with Big _ _ _ x _ _ => x end.
Definition b_sub b := match b with Big _ _ _ _ x _ => x end.
Definition b_children b := match b with Big _ _ _ _ _ x => x end.

(* bigalloc_or_uniqtype without its flag bits, and the part of it a callback can see *)
Inductive scope := SBig (b : big) | STy (t : ty).
Inductive where_ := InBig (id : Z) | InTy (id : Z).
Definition place (sc : scope) : where_ :=
  match sc with SBig b => InBig (b_id b) | STy t => InTy (tid t) end.

(* struct alloc_tree_link: container base, container, containee_coord *)
Record link := mkLink { k_base : Z; k_place : where_; k_coord : Z }.

(* The arguments of a walk_alloc_cb_t.  [a_scope] is what the link's container denotes. *)
Record args := mkArgs { a_big : option big; a_obj : Z; a_type : option ty; a_site : Z;
                        a_link : link; a_scope : scope }.

(* calling back over a list, stopping at the first non-zero result *)
Fixpoint each {A St : Type} (f : St -> A -> res (St * Z)) (xs : list A) (s : St) : res (St * Z) :=
  match xs with
  | [] => Ok (s, 0)
  | x :: xs' => do ' (s1, r) <- f s x ; if r =? 0 then each f xs' s1 else Ok (s1, r)
  end.

Fixpoint number {A : Type} (i : Z) (xs : list A) : list (Z * A) :=
  match xs with [] => [] | x :: xs' => (i, x) :: number (i + 1) xs' end.

(* UNIQTYPE_FOR_EACH_SUBOBJECT (liballocstool, absent from /repo): index, offset and type
   of each member of a composite or element of an array; nothing else has subobjects *)
Definition subobjects (t : ty) : list (Z * (Z * ty)) :=
  match t with
  | TLeaf _ _ => []
  | TArr _ _ len e => number 0 (map (fun i => (Z.of_nat i * tsize e, e)) (seq 0 (Z.to_nat len)))
  | TComp _ _ ms => number 0 ms
  end.

(* b->suballocator->walk_allocations(container, cb, arg, rb, re): each allocation of the
   suballocator under b that begins in [rb, re), with its one-based position as the
   coordinate.  This is the interface's contract (walk.c:8-14), not any one allocator. *)
Definition sub_walk {St : Type} (cb : St -> args -> res (St * Z)) (b : big) (rb re : Z) (s : St)
  : res (St * Z) :=
  match b_sub b with
  | NoSub | NoWalk _ => UB       (* call through a null pointer *)
  | Walks _ ks =>
      each (fun s p => let '(i, k) := p in
              cb s (mkArgs None (k_obj k) (k_type k) (k_site k)
                           (mkLink (b_begin b) (InBig (b_id b)) i) (SBig b)))
           (filter (fun p => (rb <=? k_obj (snd p)) && (k_obj (snd p) <? re)) (number 1 ks)) s
  end.

(* the imposed-children loop, walk.c:147-170.  The callback is given b, not the child. *)
Definition imposed (b c : big) : bool :=
  match b_sub b with NoSub => true | NoWalk i | Walks i _ => negb (b_by c =? i) end.

Fixpoint imposed_loop {St : Type} (cb : St -> args -> res (St * Z)) (b : big) (re : option Z)
    (cs : list big) (upto coord : Z) (s : St) : res (St * Z * Z) :=
  match cs with
  | [] => Ok (s, 0, upto)
  | c :: cs' =>
      let next s := imposed_loop cb b re cs' (b_end c) (coord + 1) s in
      if b_end c <=? upto then next s else
      if match re with Some e => b_begin c >? e | None => false end then next s else
      if imposed b c then
        do ' (s1, r1) <- sub_walk cb b upto (b_begin c) s ;
        if r1 =? 0 then
          do ' (s2, r2) <- cb s1 (mkArgs (Some b) (b_begin b) None 0
                                   (mkLink (b_begin b) (InBig (b_id b)) coord) (SBig b)) ;
          if r2 =? 0 then next s2 else Ok (s2, r2, upto)
        else Ok (s1, r1, upto)
      else next s
  end.

(* __liballocs_walk_allocations, walk.c:40-213.  [flag] is
   ALLOC_WALK_BIGALLOC_IMPOSED_CHILDREN; the range bounds are optional; the assertion that
   the base is the big allocation's begin is dropped (release build). *)
Definition walk_level {St : Type} (cb : St -> args -> res (St * Z)) (base : Z) (sc : scope)
    (flag : bool) (rb re : option Z) (s : St) : res (St * Z) :=
  match sc with
  | SBig b =>
      let from := match rb with Some x => x | None => base end in
      do ' (s1, r1, upto) <- (if flag then imposed_loop cb b re (b_children b) from 1 s
                              else Ok (s, 0, from)) ;
      if r1 =? 0
      then sub_walk cb b upto (match re with Some x => x | None => b_end b end) s1
      else Ok (s1, r1)
  | STy t =>
      each (fun s p => let '(i, (off, m)) := p in
              cb s (mkArgs None (base + off) (Some m) 0 (mkLink base (InTy (tid t)) (i + 1)) sc))
           (subobjects t) s
  end.

(* What the user's callback sees in a depth-first walk: the path is the link to here, then
   the enclosing links, ending with the empty one set up by the outermost call. *)
Record label := mkLab { l_big : option Z; l_obj : Z; l_type : option ty; l_site : Z;
                        l_path : list link }.

(* walk_one_df_cb, walk.c:228-298 *)
Fixpoint df {St : Type} (fuel : nat) (cb : St -> label -> St * Z) (path : list link)
    (s : St) (a : args) : res (St * Z) :=
  match fuel with
  | O => Fuel
  | S f =>
      let the := match a_type a, a_scope a with
                 | Some _, SBig b =>
                     match find (fun c => b_begin c =? a_obj a) (b_children b) with
                     | Some c => Some c
                     | None => a_big a
                     end
                 | _, _ => a_big a
                 end in
      let path' := a_link a :: path in
      let '(s1, r) := cb s (mkLab (option_map b_id the) (a_obj a) (a_type a) (a_site a) path') in
      if r =? -1 then Ok (s1, 0) else
      if negb (r =? 0) then Ok (s1, r) else
      match the, a_type a with
      | Some c, _ => walk_level (df f cb path') (a_obj a) (SBig c) false None None s1
      | None, Some t => walk_level (df f cb path') (a_obj a) (STy t) false None None s1
      | None, None => Ok (s1, 0)
      end
  end.

(* __liballocs_walk_allocations_df, walk.c:300-326 *)
Definition top_link : link := mkLink 0 (InTy 0) 0.
Definition walk_df {St : Type} (fuel : nat) (cb : St -> label -> St * Z) (base : Z) (sc : scope)
    (flag : bool) (s : St) : res (St * Z) :=
  walk_level (df fuel cb [top_link]) base sc flag None None s.

(* __liballocs_walk_refs_cb, walk.c:328-359, as a callback for the depth-first walk:
   [can] is can_interp (0: not a reference), [may] is may_contain, [ref_cb] the client's. *)
Definition refs_cb {St : Type} (can : label -> Z) (may : label -> bool)
    (ref_cb : St -> label -> St * Z) (s : St) (l : label) : St * Z :=
  if negb (can l =? 0) then
    let '(s1, r) := ref_cb s l in
    if negb (r =? 0) then (s1, r) else (s1, -1)
  else if may l then (s, 0) else (s, -1).
